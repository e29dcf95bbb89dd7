From Coq Require Import List ZArith Bool Lia Arith ZifyBool ZifyNat.
From Verif Require Import Common.Py Common.ListX Model.Sync Model.Pilots Spec.Seq Spec.Frames Proofs.PilotP.
Import ListNotations.

(** ** C32 *)
Lemma mask_put_both {A} m (r o : list A) : length m = length r -> length o = length r ->
  mask_put (map negb m) (mask_sel (map negb m) r) (mask_put m (mask_sel m r) o) = r.
Proof.
  revert r o. induction m as [|b m IH]; intros [|a r] [|x o] H1 H2; try discriminate; [reflexivity|].
  cbn in H1, H2. destruct b; cbn; f_equal; apply IH; lia.
Qed.
Lemma rect_in {A} (rows : list (list A)) N r : rect rows N -> In r rows -> length r = N.
Proof. unfold rect. rewrite Forall_forall. auto. Qed.
Lemma mask_sel_tile {A} n m (r : list A) : length m = length r -> mask_sel (tile n m) (tile n r) = tile n (mask_sel m r).
Proof. intros H. induction n; [reflexivity|]. rewrite !tile_S, mask_sel_app, IHn by assumption. reflexivity. Qed.
Lemma rect_firstn {A} n (rows : list (list A)) N : rect rows N -> n <= N -> rect (map (firstn n) rows) n.
Proof.
  intros H Hn. apply Forall_forall. intros x Hx. apply in_map_iff in Hx as (r & <- & Hr). rewrite firstn_length, (rect_in rows N) by assumption. lia.
Qed.
Lemma rect_mask_sel {A} m (rows : list (list A)) N : rect rows N -> length m = N -> rect (map (mask_sel m) rows) (count_true m).
Proof.
  intros H Hm. apply Forall_forall. intros x Hx. apply in_map_iff in Hx as (r & <- & Hr). apply mask_sel_length. now rewrite (rect_in rows N r H Hr).
Qed.

Lemma rdiv rat fl sq : rat = 0 \/ Nat.divide rat (fl - sq) -> rat <> 0 -> (fl - sq) mod rat = 0.
Proof. intros [H|H] Hne; [lia|]. now apply Nat.mod_divide in H. Qed.

Lemma filter_nonzero_from k m : 0 < k -> filter (fun i => negb (i =? 0)) (nonzero_from k m) = nonzero_from k m.
Proof.
  revert k. induction m as [|b m IH]; intros k Hk; cbn; [reflexivity|]. destruct b; cbn; rewrite ?IH by lia; [|reflexivity].
  destruct (Nat.eqb_spec k 0); [lia|reflexivity].
Qed.
Lemma count_ints m : count_nonzero (IInts (nonzero m)) = match m with true :: m' => count_true m' | _ => count_true m end.
Proof.
  cbn. unfold nonzero. destruct m as [|[] m]; cbn; [reflexivity| |].
  - rewrite filter_nonzero_from by lia. generalize 1. clear. induction m as [|[] m IH]; intros k; cbn; auto.
  - rewrite filter_nonzero_from by lia. generalize 1. clear. induction m as [|[] m IH]; intros k; cbn; auto.
Qed.
Lemma set_all_length ix : forall m m', set_all ix m = Ok m' -> length m' = length m.
Proof.
  induction ix as [|i ix IH]; intros m m' H; cbn in H; [congruence|].
  destruct (_ || _)%bool; [discriminate|]. apply IH in H. now rewrite upd_length in H.
Qed.

Section Regular.
Context {A : Type} (junk : A) (genp : nat -> list (list A)) (conv_pil : list (list A) -> result (list (list A)))
  (conv_pay : option nat -> list (list A) -> result (list (list A))).

Lemma core_regular fl sq rat pil pay sq' n (nmodes := length pay) :
  sq <= fl -> 0 < fl -> (rat <> 0 -> (fl - sq) mod rat = 0) -> 1 <= nmodes -> 1 <= n ->
  length pil = nmodes -> rect pil (n_pilots fl sq rat) ->
  rect pay (fl - n_pilots fl sq rat) ->
  let pm := pil_mask fl sq rat in
  exists o1 o2, rows_assign (IMask pm) pil (repeat (repeat junk fl) nmodes) = Ok o1 /\
    rows_assign (IMask (map negb pm)) pay o1 = Ok o2 /\ length o2 = nmodes /\ rect o2 fl /\
    map (mask_sel (map negb pm)) o2 = pay /\ map (mask_sel pm) o2 = pil /\
    let s := mk_psig (map (tile n) o2) 1 fl sq' pay pil (IMask (map negb pm)) (IMask pm) in
    get_data s None = Ok (map (tile n) pay) /\ extract_pilots s None = Ok (map (tile n) pil).
Proof.
  intros Hs Hfl Hr Hnm Hn Lp Rp Ry. cbn zeta.
  pose proof (pil_mask_length fl sq rat Hs Hr) as Lm. pose proof (pil_mask_count fl sq rat) as Cm.
  pose proof (count_true_neg (pil_mask fl sq rat)) as Cn. set (pm := pil_mask fl sq rat) in *.
  set (np := n_pilots fl sq rat) in *.
  set (out0 := repeat (repeat junk fl) nmodes).
  assert (R0 : rect out0 fl) by (apply rect_repeat, repeat_length).
  assert (L0 : length out0 = nmodes) by apply repeat_length.
  assert (RP : rect pil (count_true pm)) by now rewrite Cm.
  assert (RD : rect pay (count_true (map negb pm))) by (replace (count_true (map negb pm)) with (fl - np) by lia; assumption).
  set (o1 := put_rows pm pil out0). set (o2 := put_rows (map negb pm) pay o1).
  assert (L1 : length o1 = nmodes) by (unfold o1; rewrite put_rows_length; congruence).
  assert (R1 : rect o1 fl) by now apply put_rows_rect.
  assert (L2 : length o2 = nmodes) by (unfold o2; rewrite put_rows_length; unfold nmodes in *; congruence).
  assert (R2 : rect o2 fl) by now apply put_rows_rect.
  assert (E1 : map (mask_sel (map negb pm)) o2 = pay).
  { unfold o2. apply put_rows_sel with fl; try assumption; [unfold nmodes in *; congruence|now rewrite map_length]. }
  assert (E2 : map (mask_sel pm) o2 = pil).
  { unfold o2. rewrite <- (map_negb_invol pm) at 1. rewrite (put_rows_sel_neg _ _ _ fl); try assumption; [|unfold nmodes in *; congruence|now rewrite map_length].
    rewrite map_negb_invol. unfold o1. apply put_rows_sel with fl; try assumption. congruence. }
  exists o1, o2. split; [apply rows_assign_ok with fl; try assumption; congruence|].
  split; [apply rows_assign_ok with fl; try assumption; [unfold nmodes in *; congruence|now rewrite map_length]|].
  split; [assumption|]. split; [assumption|]. split; [assumption|]. split; [assumption|].
  set (s := mk_psig (map (tile n) o2) 1 fl sq' pay pil (IMask (map negb pm)) (IMask pm)).
  assert (Hsig : mask_signal s (n * fl) (map negb pm) pm).
  { unfold mask_signal, s. cbn. repeat split; try assumption; try reflexivity; [|now apply rect_tile|now rewrite map_length].
    intros E. apply (f_equal (@length _)) in E. rewrite map_length, L2 in E. cbn in E. lia. }
  rewrite (get_data_all s (n * fl) _ _ n Hsig eq_refl Hn), (extract_all s (n * fl) _ _ n Hsig eq_refl Hn).
  cbn [p_rows s]. rewrite !map_map. split; f_equal.
  - rewrite <- E1 at 1. rewrite map_map. apply map_ext_in. intros r Hrow. apply mask_sel_tile. rewrite map_length, Lm. symmetry. now apply (rect_in o2).
  - rewrite <- E2 at 1. rewrite map_map. apply map_ext_in. intros r Hrow. apply mask_sel_tile. rewrite Lm. symmetry. now apply (rect_in o2).
Qed.

Lemma c32_regular dflt payload pay_sig fl sq rat N pilots p_sig expl kw n (nmodes := length payload) :
  sq <= fl -> 0 < fl -> (rat = 0 \/ Nat.divide rat (fl - sq)) -> 1 <= nmodes -> 1 <= n ->
  rect payload N -> fl - n_pilots fl sq rat <= N ->
  (length pilots = nmodes \/ length pilots = 1) -> rect pilots (n_pilots fl sq rat) ->
  (forall x, conv_pil x = Ok x) -> (forall m x, conv_pay m x = Ok x) ->
  (kw = None \/ match expl with Some e => e | None => dflt end = None) ->
  let pil := if length pilots =? nmodes then pilots else concat (repeat pilots nmodes) in
  let pay := map (firstn (fl - n_pilots fl sq rat)) payload in
  exists s, fst (from_symbol_array junk genp conv_pil conv_pay dflt payload pay_sig fl (Z.of_nat sq) (Z.of_nat rat) None
                   (Some (pilots, p_sig)) expl kw n false) = Ok s /\
    length (p_rows s) = nmodes /\ rect (p_rows s) (n * fl) /\
    p_symbols s = pay /\ p_pilots s = pil /\
    get_data s None = Ok (map (tile n) pay) /\ extract_pilots s None = Ok (map (tile n) pil).
Proof.
  intros Hs Hfl Hr Hnm Hn RN HN Lp Rp Hcp Hcd Hkw. cbn zeta. pose proof (rdiv _ _ _ Hr) as Hr'.
  unfold from_symbol_array, frame_idx. rewrite cal_pilot_idx_mask by assumption. cbn [bind fst snd count_nonzero].
  pose proof (pil_mask_length fl sq rat Hs Hr') as Lm. pose proof (pil_mask_count fl sq rat) as Cm.
  pose proof (count_true_neg (pil_mask fl sq rat)) as Cn.
  set (np := n_pilots fl sq rat) in *.
  assert (Cd : count_true (map negb (pil_mask fl sq rat)) = fl - np) by lia.
  rewrite (row_len_rect payload N) by (try assumption; intros ->; unfold nmodes in Hnm; cbn in Hnm; lia).
  rewrite Cd. destruct (Nat.leb_spec (fl - np) N); [|lia]. cbn [negb].
  set (pil := if length pilots =? nmodes then pilots else concat (repeat pilots nmodes)).
  assert (Lpil : length pil = nmodes /\ rect pil np).
  { unfold pil. destruct (Nat.eqb_spec (length pilots) nmodes); [auto|]. destruct Lp as [|Lp]; [contradiction|].
    destruct pilots as [|row [|]]; try discriminate. inversion Rp; subst.
    assert (E : concat (repeat [row] nmodes) = repeat row nmodes) by (clear; induction nmodes; cbn; congruence).
    rewrite E. split; [apply repeat_length|apply rect_repeat]. assumption. }
  destruct Lpil as [Lpil Rpil].
  destruct (core_regular fl sq rat pil (map (firstn (fl - np)) payload) (Z.of_nat sq) n) as (o1 & o2 & E1 & E2 & L2 & R2 & _ & _ & Eg & Ee);
    try assumption; try (rewrite map_length; assumption); [now apply rect_firstn with N|].
  assert (G : forall M, from_symbol_array_core junk genp conv_pil conv_pay payload pay_sig fl (IMask (map negb (pil_mask fl sq rat))) (IMask (pil_mask fl sq rat))
     (Z.of_nat sq) (Some (pilots, p_sig)) M n false = Ok (mk_psig (map (tile n) o2) 1 fl (Z.of_nat sq) (map (firstn (fl - np)) payload) pil (IMask (map negb (pil_mask fl sq rat))) (IMask (pil_mask fl sq rat)))).
  { intros M. unfold from_symbol_array_core. cbn [bind]. fold nmodes. cbn [count_nonzero]. rewrite Cd.
    assert (Epil : (if length pilots =? nmodes then if p_sig then Ok pilots else conv_pil pilots
       else match pilots with [row] => conv_pil (repeat row nmodes) | _ => Err AssertionError end) = Ok pil).
    { unfold pil. destruct (Nat.eqb_spec (length pilots) nmodes).
      - destruct p_sig; [reflexivity|apply Hcp].
      - destruct Lp as [|Lp]; [contradiction|]. destruct pilots as [|row [|]]; try discriminate. rewrite Hcp. f_equal.
        clear. induction nmodes; cbn; congruence. }
    rewrite Epil. cbn [bind]. replace (if pay_sig then Ok payload else conv_pay M payload) with (@Ok (list (list A)) payload) by (destruct pay_sig; [reflexivity|now rewrite Hcd]).
    cbn [bind]. rewrite map_length in E1. fold nmodes in E1. rewrite E1. cbn [bind]. rewrite E2. reflexivity. }
  exists (mk_psig (map (tile n) o2) 1 fl (Z.of_nat sq) (map (firstn (fl - np)) payload) pil (IMask (map negb (pil_mask fl sq rat))) (IMask (pil_mask fl sq rat))).
  split.
  - destruct kw as [k|]; [|cbn [fst]; apply G]. destruct Hkw as [|Hkw]; [discriminate|]. rewrite Hkw. cbn [fst]. apply G.
  - rewrite map_length in L2. cbn [p_rows p_symbols p_pilots]. rewrite map_length. repeat split; auto. now apply rect_tile.
Qed.

(** payload_is_frame: the frame itself comes back *)
Lemma put_sel_rows pm (rows outs : list (list A)) fl : length pm = fl -> rect rows fl -> rect outs fl -> length outs = length rows ->
  put_rows (map negb pm) (map (mask_sel (map negb pm)) rows) (put_rows pm (map (mask_sel pm) rows) outs) = rows.
Proof.
  intros Lm. unfold put_rows. revert outs. induction rows as [|r rows IH]; intros [|o outs] H1 H2 H3; try discriminate; [reflexivity|].
  inversion H1; subst. inversion H2; subst. cbn. rewrite mask_put_both by congruence. f_equal. apply IH; auto.
Qed.
Lemma c32_frame dflt payload pay_sig fl sq rat pilots expl kw n (nmodes := length payload) :
  sq <= fl -> 0 < fl -> (rat = 0 \/ Nat.divide rat (fl - sq)) -> 1 <= nmodes ->
  rect payload fl ->
  (forall x, conv_pil x = Ok x) -> (forall m x, conv_pay m x = Ok x) ->
  (kw = None \/ match expl with Some e => e | None => dflt end = None) ->
  exists s, fst (from_symbol_array junk genp conv_pil conv_pay dflt payload pay_sig fl (Z.of_nat sq) (Z.of_nat rat) None
                   pilots expl kw n true) = Ok s /\ p_rows s = map (tile n) payload.
Proof.
  intros Hs Hfl Hr Hnm RN Hcp Hcd Hkw. pose proof (rdiv _ _ _ Hr) as Hr'.
  unfold from_symbol_array, frame_idx. rewrite cal_pilot_idx_mask by assumption. cbn [bind fst snd count_nonzero].
  pose proof (pil_mask_length fl sq rat Hs Hr') as Lm. pose proof (pil_mask_count fl sq rat) as Cm.
  pose proof (count_true_neg (pil_mask fl sq rat)) as Cn. set (pm := pil_mask fl sq rat) in *.
  rewrite (row_len_rect payload fl) by (try assumption; intros ->; unfold nmodes in Hnm; cbn in Hnm; lia).
  destruct (Nat.leb_spec (count_true (map negb pm)) fl); [|lia]. cbn [negb].
  assert (G : forall M, from_symbol_array_core junk genp conv_pil conv_pay payload pay_sig fl (IMask (map negb pm)) (IMask pm)
     (Z.of_nat sq) pilots M n true = Ok (mk_psig (map (tile n) payload) 1 fl (Z.of_nat sq) (map (firstn (count_true (map negb pm))) (map (mask_sel (map negb pm)) payload)) (map (mask_sel pm) payload) (IMask (map negb pm)) (IMask pm))).
  { intros M. unfold from_symbol_array_core. change (@idx_get A (IMask pm)) with (@mask_get A pm). change (@idx_get A (IMask (map negb pm))) with (@mask_get A (map negb pm)). rewrite (mapM_mask_get pm payload fl) by assumption. cbn [bind]. rewrite Hcp. cbn [bind].
    rewrite (mapM_mask_get (map negb pm) payload fl) by (try assumption; now rewrite map_length). cbn [bind]. rewrite Hcd. cbn [bind].
    rewrite map_length, Nat.eqb_refl. cbn [bind count_nonzero].
    assert (Rd : rect (map (mask_sel (map negb pm)) payload) (count_true (map negb pm))) by (apply rect_mask_sel with fl; [assumption|now rewrite map_length]).
    assert (Ef : map (firstn (count_true (map negb pm))) (map (mask_sel (map negb pm)) payload) = map (mask_sel (map negb pm)) payload).
    { rewrite <- (map_id (map (mask_sel (map negb pm)) payload)) at 2. apply map_ext_in. intros r Hin. apply firstn_all2. rewrite (rect_in _ _ _ Rd Hin). lia. }
    rewrite Ef.
    assert (R0 : rect (repeat (repeat junk fl) (length payload)) fl) by (apply rect_repeat, repeat_length).
    rewrite (rows_assign_ok pm _ _ fl); [|now rewrite map_length, repeat_length|assumption|assumption|now apply rect_mask_sel with fl]. cbn [bind].
    rewrite (rows_assign_ok (map negb pm) _ _ fl); [|rewrite put_rows_length; rewrite ?map_length, ?repeat_length; reflexivity|now apply put_rows_rect|now rewrite map_length|assumption]. cbn [bind].
    rewrite (put_sel_rows pm payload _ fl) by (try assumption; apply repeat_length). reflexivity. }
  eexists. split.
  - destruct kw as [k|]; [|cbn [fst]; apply G]. destruct Hkw as [|Hkw]; [discriminate|]. rewrite Hkw. cbn [fst]. apply G.
  - reflexivity.
Qed.

(** ** explicit pilot_idx *)
Lemma rows_assign_bad l (vals rows : list (list A)) k : rows <> [] -> vals <> [] -> rect vals k -> k <> length l -> k <> 1 ->
  exists e, rows_assign (IInts l) vals rows = Err e.
Proof.
  intros Hr Hv Hk H1 H2. unfold rows_assign. destruct (bcast vals (length rows)) as [vs|] eqn:E; cbn [bind]; [|eauto].
  assert (exists v vs', vs = v :: vs' /\ length v = k) as (v & vs' & -> & Lv).
  { unfold bcast in E. destruct (_ =? _); [injection E as <-|].
    - destruct vals as [|v vs']; [congruence|]. inversion Hk; subst. eauto.
    - destruct vals as [|v [|]]; try discriminate. assert (vs = repeat v (length rows)) as -> by congruence.
      destruct rows; [congruence|]. inversion Hk; subst. cbn. eauto. }
  destruct rows as [|r rows]; [congruence|]. cbn [combine mapM fst snd idx_assign]. unfold ints_assign.
  rewrite bcast_err by congruence. cbn. eauto.
Qed.
End Regular.

Lemma c32_idx_generated {A} (junk : A) genp conv_pil conv_pay dflt payload pay_sig fl sq rat ix expl kw n pidx nmodes :
  length payload = nmodes -> 1 <= nmodes -> well_shaped nmodes genp ->
  set_all ix (repeat false fl) = Ok (true :: pidx) -> 2 <= count_true pidx ->
  exists e, fst (from_symbol_array junk genp conv_pil conv_pay dflt payload pay_sig fl sq rat (Some ix) None expl kw n false) = Err e.
Proof.
  intros Hl Hnm Hg Hset Hc. unfold from_symbol_array, frame_idx. rewrite Hset. cbn [bind].
  destruct (negb _); [cbn; eauto|].
  assert (G : forall M, exists e, from_symbol_array_core junk genp conv_pil conv_pay payload pay_sig fl
     (IInts (nonzero (map negb (true :: pidx)))) (IInts (nonzero (true :: pidx))) sq None M n false = Err e).
  { intros M. unfold from_symbol_array_core. cbn [bind]. rewrite ?count_ints.
    destruct (if pay_sig then Ok payload else conv_pay M payload) as [pay|]; cbn [bind]; [|eauto].
    destruct (Hg (count_true pidx)) as [L R].
    destruct (rows_assign_bad (nonzero (true :: pidx)) (genp (count_true pidx)) (repeat (repeat junk fl) (length payload)) (count_true pidx)) as (e & E).
    - destruct payload; [cbn in Hl; lia|discriminate].
    - intros E. rewrite E in L. cbn in L. lia.
    - exact R.
    - rewrite nonzero_length. cbn. lia.
    - lia.
    - rewrite E. cbn. eauto. }
  destruct kw, (match expl with Some e => e | None => dflt end); cbn [fst]; eauto.
Qed.

Lemma c32_idx_payload {A} (junk : A) genp conv_pil conv_pay dflt payload fl sq rat ix pilots expl kw n pidx N :
  1 <= length payload -> rect payload N ->
  set_all ix (repeat false fl) = Ok (false :: pidx) -> 2 <= count_true (map negb pidx) ->
  exists e, fst (from_symbol_array junk genp conv_pil conv_pay dflt payload true fl sq rat (Some ix) pilots expl kw n false) = Err e.
Proof.
  intros Hnm RN Hset Hc. unfold from_symbol_array, frame_idx. rewrite Hset. cbn [bind].
  rewrite count_ints. cbn [map negb]. rewrite (row_len_rect payload N) by (try assumption; intros ->; cbn in Hnm; lia).
  destruct (Nat.leb_spec (count_true (map negb pidx)) N) as [HN|HN]; cbn [negb]; [|cbn; eauto].
  assert (G : forall M, exists e, from_symbol_array_core junk genp conv_pil conv_pay payload true fl
     (IInts (nonzero (true :: map negb pidx))) (IInts (nonzero (false :: pidx))) sq pilots M n false = Err e).
  { intros M. unfold from_symbol_array_core. cbn [bind]. rewrite ?count_ints.
    match goal with |- context [bind ?x] => destruct x as [pil|] end; cbn [bind]; [|eauto].
    destruct (rows_assign _ pil _) as [o1|] eqn:E1; cbn [bind]; [|eauto].
    assert (Lo : length o1 = length payload).
    { unfold rows_assign in E1. destruct (bcast pil _) as [vs|] eqn:Eb; cbn [bind] in E1; [|discriminate].
      apply mapM_length in E1. rewrite combine_length, repeat_length in E1. rewrite E1.
      assert (length vs = length payload); [|lia].
      unfold bcast in Eb. rewrite repeat_length in Eb. destruct (Nat.eqb_spec (length pil) (length payload)); [congruence|].
      destruct pil as [|v [|]]; try discriminate. injection Eb as <-. apply repeat_length. }
    destruct (rows_assign_bad (nonzero (true :: map negb pidx)) (map (firstn (count_true (map negb pidx))) payload) o1 (count_true (map negb pidx))) as (e & E).
    - intros ->. cbn in Lo. lia.
    - destruct payload; [cbn in Hnm; lia|discriminate].
    - now apply rect_firstn with N.
    - rewrite nonzero_length. cbn. lia.
    - lia.
    - rewrite E. cbn. eauto. }
  destruct kw, (match expl with Some e => e | None => dflt end); cbn [fst]; eauto.
Qed.

(** reading the payload of a signal whose index attributes are integers *)
Lemma c32_idx_get {A} (s : psig A) l N : p_rows s <> [] -> rect (p_rows s) N -> p_os s = 1 -> 0 < p_frame_len s -> p_frame_len s <= N ->
  p_idx_dat s = IInts l -> length l <> p_frame_len s -> length l <> 1 -> get_data s None = Err ValueError.
Proof.
  intros Hr HR Hos Hfl HN Hd H1 H2. unfold get_data, p_nframes. rewrite Hos, Nat.mul_1_l.
  destruct (Nat.eqb_spec (p_frame_len s) 0); [lia|]. rewrite (row_len_rect _ N Hr HR). cbn [bind fst snd].
  assert (Hq : 1 <= N / p_frame_len s) by (apply Nat.div_le_lower_bound; lia).
  destruct (Z.ltb_spec (Z.of_nat (N / p_frame_len s)) 1); [lia|]. rewrite Hd. cbn [idx_bools]. rewrite Nat2Z.id.
  destruct (N / p_frame_len s) as [|q] eqn:Eq; [lia|]. cbn [seq map fill_frames].
  unfold slice_assign at 1. rewrite repeat_length.
  rewrite !clipz_pos by nia.
  rewrite bcast_err; [reflexivity| |now rewrite map_length].
  rewrite map_length. nia.
Qed.

(** ** C33 *)
Lemma c33_state {A} (junk : A) genp conv_pil conv_pay hist : Forall leaves_default hist ->
  fsa_state junk genp conv_pil conv_pay hist = None.
Proof.
  unfold fsa_state. induction hist as [|a hist IH]; intros H; cbn; [reflexivity|]. inversion H as [|? ? Ha Hh]; subst.
  replace (snd (fsa_call junk genp conv_pil conv_pay None a)) with (@None nat); [now apply IH|].
  unfold fsa_call, from_symbol_array. destruct (frame_idx _ _ _ _) as [[d p]|]; [|reflexivity].
  destruct (negb _); [reflexivity|]. destruct Ha as [Ha|Ha].
  - destruct (a_explicit a) as [e|]; [|congruence]. destruct (a_kw_m a), e; reflexivity.
  - rewrite Ha. destruct (a_explicit a); [|reflexivity]. reflexivity.
Qed.
Lemma c33_second {A} (junk : A) genp conv_pil conv_pay a s m : a_explicit a = None -> a_kw_m a = Some m ->
  fst (fsa_call junk genp conv_pil conv_pay None a) = Ok s ->
  fst (fsa_call junk genp conv_pil conv_pay (fsa_state junk genp conv_pil conv_pay [a]) a) = Err AssertionError.
Proof.
  intros He Hm. unfold fsa_state. cbn [fold_left]. unfold fsa_call, from_symbol_array. destruct (frame_idx _ _ _ _) as [[d p]|]; [|discriminate].
  destruct (negb _); [discriminate|]. rewrite He, Hm. cbn [fst snd]. reflexivity.
Qed.
