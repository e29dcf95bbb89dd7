(** Pilot-based phase recovery of signal objects. *)
From Coq Require Import String List Arith ZArith Bool Lia Reals Lra.
From Verif Require Import Common.Py Common.ListX Common.Cplx Common.SumX Common.Angle Model.Windows Model.Quality
  Model.Sync Model.Pilots Model.Phase Spec.Seq Spec.Equal Spec.Win Spec.Frames Spec.PhaseSpec Proofs.WindowsP Proofs.PilotP
  Proofs.PhaseP Proofs.PhaseQ Proofs.PhaseV Proofs.PhaseR.
Import ListNotations.
Local Open Scope R_scope.

Lemma nonzero_from_inc m : forall k, increasing (nonzero_from k m).
Proof.
  induction m as [|b m IH]; intros k i j x y Hij Hi Hj; cbn [nonzero_from] in *; [destruct i; discriminate|].
  destruct b; [|eapply IH; eassumption].
  destruct j as [|j]; [lia|]. cbn [nth_error] in Hj. destruct i as [|i]; cbn [nth_error] in Hi.
  - injection Hi as <-. apply nth_error_In in Hj. apply nonzero_from_spec in Hj. lia.
  - apply (IH (S k) i j); [lia|assumption|assumption].
Qed.
Lemma nonzero_inc m : increasing (nonzero m).
Proof. apply nonzero_from_inc. Qed.
Lemma nonzero_bound m k : In k (nonzero m) -> (k < length m)%nat.
Proof. intros H. apply nonzero_spec in H. eapply nth_error_Some_lt; exact H. Qed.

Lemma limited_nth {A} b (l : list A) i x : nth_error (limited b l) i = Some x -> nth_error l i = Some x.
Proof.
  unfold limited. destruct b as [c|]; [|auto]. intros H. pose proof (nth_error_Some_lt _ _ _ H) as Hl.
  rewrite firstn_length in Hl. rewrite nth_error_firstn_lt in H by lia. exact H.
Qed.
Lemma limited_length {A} b (l : list A) : (length (limited b l) <= length l)%nat.
Proof. unfold limited. destruct b; [rewrite firstn_length; lia|lia]. Qed.
Lemma sel_nth ratio mb sq0 nz sel i : every_nth ratio (limited mb (skipn sq0 nz)) sel -> (i < length sel)%nat ->
  nth_error nz (sq0 + i * ratio) = Some (nth i sel 0%nat).
Proof.
  intros [_ H] Hi. pose proof (nth_error_nth' sel 0%nat Hi) as Hn. rewrite H in Hn. apply limited_nth in Hn.
  rewrite nth_error_skipn' in Hn. exact Hn.
Qed.
Lemma sel_props ratio mb sq0 pil sel : (1 <= ratio)%nat -> every_nth ratio (limited mb (skipn sq0 (nonzero pil))) sel ->
  increasing sel /\ (forall k, In k sel -> (k < length pil)%nat).
Proof.
  intros Hr Hs. split.
  - intros i j a b Hij Hi Hj. pose proof (sel_nth _ _ _ _ _ i Hs (nth_error_Some_lt _ _ _ Hi)) as Hi'.
    pose proof (sel_nth _ _ _ _ _ j Hs (nth_error_Some_lt _ _ _ Hj)) as Hj'.
    rewrite (nth_error_nth _ _ 0%nat Hi) in Hi'. rewrite (nth_error_nth _ _ 0%nat Hj) in Hj'.
    eapply (nonzero_inc pil); [|exact Hi'|exact Hj']. nia.
  - intros k Hk. apply In_nth_error in Hk as [i Hi]. pose proof (sel_nth _ _ _ _ _ i Hs (nth_error_Some_lt _ _ _ Hi)) as Hi'.
    rewrite (nth_error_nth _ _ 0%nat Hi) in Hi'. apply nonzero_bound. eapply nth_error_In; exact Hi'.
Qed.
Lemma pilot_cpe_unfold s pil N ratio mb n use_seq : p_idx_pil s = IMask pil -> (0 <= p_seq_len s)%Z ->
  pilot_cpe s N ratio mb n use_seq =
  pilot_based_cpe_new (p_rows s) (map (skipn (unused s use_seq)) (p_pilots s)) (skipn (unused s use_seq) (nonzero pil)) (p_frame_len s) N ratio mb n.
Proof.
  intros Hp Hq. unfold pilot_cpe, unused. rewrite Hp. cbn [idx_nonzero].
  assert (Hsk : forall (A : Type) (l : list A), pyslice_from (p_seq_len s) l = skipn (Z.to_nat (p_seq_len s)) l).
  { intros A l. unfold pyslice_from, clipz. destruct (Z.ltb_spec (p_seq_len s) 0); [lia|].
    destruct (le_lt_dec (length l) (Z.to_nat (p_seq_len s))) as [H1|H1]; [rewrite !skipn_all2 by lia; reflexivity|f_equal; lia]. }
  destruct use_seq; cbn [skipn].
  - rewrite map_id. reflexivity.
  - rewrite Hsk. f_equal. apply map_ext. intros r. apply Hsk.
Qed.

Section Obj.
Variables (t s : psig C) (pil : list bool) (avg ratio : nat) (mb : option nat) (n : nat) (use_seq : bool) (sel : list nat) (Ls : nat)
  (ph : nat -> nat -> R).
Hypothesis (Hlay : same_layout t s).
Hypothesis (Hpil : p_idx_pil t = IMask pil).
Hypothesis (Hplen : length pil = p_frame_len t).
Hypothesis (Hsq : (0 <= p_seq_len t)%Z).
Hypothesis (Havg : (1 < avg)%nat).
Hypothesis (Hratio : (1 <= ratio)%nat).
Hypothesis (Hsel : every_nth ratio (limited mb (skipn (unused t use_seq) (nonzero pil))) sel).
Hypothesis (Hne : p_rows t <> []).
Hypothesis (Hrect : rect (p_rows t) Ls).
Hypothesis (HLs : (n * p_frame_len t <= Ls)%nat).
Hypothesis (HA : (odd_up avg <= n * length sel)%nat).
Hypothesis (Hmatch : pilots_match (p_rows t) (map (skipn (unused t use_seq)) (p_pilots t)) sel (p_frame_len t) ratio n).
Hypothesis (Hrot : rotated_by ph (p_rows t) (p_rows s)).

Lemma obj_call : pilot_cpe s avg ratio mb n use_seq = pilot_based_cpe_new (p_rows s) (map (skipn (unused t use_seq)) (p_pilots t))
  (skipn (unused t use_seq) (nonzero pil)) (p_frame_len t) avg ratio mb n.
Proof.
  destruct Hlay as (L1 & L2 & L3 & L4). rewrite (pilot_cpe_unfold s pil) by (congruence || lia).
  unfold unused. rewrite L2, L3, L4. reflexivity.
Qed.
Lemma obj_sel : increasing sel /\ (forall k, In k sel -> (k < p_frame_len t)%nat).
Proof. rewrite <- Hplen. eapply sel_props; eassumption. Qed.

Let h := ((odd_up avg - 1) / 2)%nat.
Lemma obj_general : (forall k q, (k < length (p_rows t))%nat -> (S q < n * length sel)%nat ->
    Rabs (ph k (pilot_at sel (p_frame_len t) (S q)) - ph k (pilot_at sel (p_frame_len t) q)) < PI) ->
  exists out tr, pilot_cpe s avg ratio mb n use_seq = Ok (out, tr) /\ length tr = length (p_rows t) /\
  rotated_by (fun k i => ph k i - cell 0 tr k i) (map (firstn (n * p_frame_len t)) (p_rows t)) out /\
  forall k, (k < length (p_rows t))%nat -> exists c, turns c /\ forall i, (i < n * p_frame_len t)%nat ->
    interpolates (pilot_at sel (p_frame_len t)) (fun q => mean_at (fun j => ph k (pilot_at sel (p_frame_len t) j)) (q - h) (odd_up avg) + c)
      h (n * length sel - 1 - h) i (cell 0 tr k i).
Proof.
  intros Hst. rewrite obj_call. destruct obj_sel as [S1 S2]. eapply recover; eassumption.
Qed.
Lemma obj_const (theta : nat -> R) : (forall k i, ph k i = theta k) ->
  exists tr, pilot_cpe s avg ratio mb n use_seq = Ok (map (firstn (n * p_frame_len t)) (p_rows t), tr).
Proof.
  intros Hth. rewrite obj_call. destruct obj_sel as [S1 S2]. eapply recover_const; try eassumption.
  intros k q _ _. rewrite !Hth. replace (theta k - theta k) with 0 by ring. rewrite Rabs_R0. apply PI_RGT_0.
Qed.
Lemma obj_line (a b : nat -> R) p0 d : (forall k i, ph k i = a k + b k * INR i) ->
  (forall q, (q < n * length sel)%nat -> pilot_at sel (p_frame_len t) q = (p0 + d * q)%nat) ->
  (forall k, (k < length (p_rows t))%nat -> Rabs (b k * INR d) < PI) ->
  exists out tr, pilot_cpe s avg ratio mb n use_seq = Ok (out, tr) /\ length out = length (p_rows t) /\
    forall k row, nth_error (p_rows t) k = Some row -> exists row', nth_error out k = Some row' /\ length row' = (n * p_frame_len t)%nat /\
      forall i, (pilot_at sel (p_frame_len t) h <= i <= pilot_at sel (p_frame_len t) (n * length sel - 1 - h))%nat -> (i < n * p_frame_len t)%nat ->
        nth_error row' i = nth_error row i.
Proof.
  intros Hth Hpos Hb. rewrite obj_call. destruct obj_sel as [S1 S2]. eapply recover_line; try eassumption.
  intros k q Hk Hq. rewrite !Hth, !Hpos by lia. rewrite !plus_INR, !mult_INR, S_INR.
  match goal with |- Rabs ?e < _ => replace e with (b k * INR d) by ring end. apply Hb. exact Hk.
Qed.
End Obj.

(** ** pilots of signals whose pilot positions carry the pilots attribute *)
Lemma extract_at t pil m r : pilot_signal t pil m r -> forall k row, nth_error (p_rows t) k = Some row ->
  exists prow, nth_error (p_pilots t) k = Some prow /\ (r * length prow = m * length (nonzero pil))%nat /\
    (forall a, In a prow -> a <> C0) /\
    forall q, (q < m * length (nonzero pil))%nat ->
      nth_error row (pilot_at (nonzero pil) (p_frame_len t) q) = nth_error (tile r prow) q.
Proof.
  intros ((dat & Hs) & Hm & Hr & Hsq & He & Hnz) k row Hk.
  pose proof (mask_signal_nframes _ _ _ _ Hs) as Hnf. destruct Hs as (_ & Hrect & _ & Hfl & _ & Hp & _ & Hlp).
  rewrite Nat.div_mul in Hnf by lia. unfold extract_pilots in He. rewrite Hnf in He. cbn [bind] in He.
  destruct (map Z.of_nat (seq 0 m)) as [|z zs] eqn:Ez; [destruct m; [lia|discriminate]|]. rewrite <- Ez in He. clear Ez z zs.
  rewrite Hp in He. cbn [idx_nonzero] in He.
  assert (Hidx : flat_map (fun i => map (fun k => (Z.of_nat k + i * Z.of_nat (p_frame_len t))%Z) (nonzero pil)) (map Z.of_nat (seq 0 m)) =
    map Z.of_nat (map (pilot_at (nonzero pil) (p_frame_len t)) (seq 0 (m * length (nonzero pil))))).
  { rewrite <- flat_positions, flat_map_concat_map, map_map, flat_map_concat_map, concat_map, map_map.
    f_equal. apply map_ext. intros f. rewrite map_map. apply map_ext. intros j. lia. }
  rewrite Hidx in He.
  destruct (mapM_nth _ _ _ k row He Hk) as (trow & P1 & P2). rewrite nth_error_map in P1.
  destruct (nth_error (p_pilots t) k) as [prow|] eqn:Ep; [|discriminate]. cbn [option_map] in P1. injection P1 as <-.
  exists prow. split; [reflexivity|].
  pose proof (mapM_length _ _ _ P2) as Hl. rewrite !map_length, seq_length, tile_length in Hl. split; [exact Hl|].
  split. { rewrite Forall_forall in Hnz. pose proof (Hnz prow (nth_error_In _ _ Ep)) as Hn2. rewrite Forall_forall in Hn2. exact Hn2. }
  intros q Hq. set (p := pilot_at (nonzero pil) (p_frame_len t) q).
  assert (Hz : nth_error (map Z.of_nat (map (pilot_at (nonzero pil) (p_frame_len t)) (seq 0 (m * length (nonzero pil))))) q = Some (Z.of_nat p)).
  { rewrite !nth_error_map, nth_error_seq by exact Hq. reflexivity. }
  destruct (mapM_nth _ _ _ q _ P2 Hz) as (a & A1 & A2). rewrite A1.
  assert (Hpl : (p < length row)%nat).
  { unfold rect in Hrect. rewrite Forall_forall in Hrect. rewrite (Hrect row (nth_error_In _ _ Hk)).
    apply pilot_at_bound; [|exact Hq]. intros j Hj. rewrite <- Hlp. apply nonzero_bound. exact Hj. }
  unfold getz in A2. destruct (Z.leb_spec 0 (Z.of_nat p)) as [_|]; [|lia].
  destruct (nth_error_lt_Some row p Hpl) as [b Hb]. unfold getn in A2. rewrite Nat2Z.id, Hb in A2. rewrite Hb. congruence.
Qed.

Lemma strided_le a b ratio : (1 <= ratio)%nat -> (a <= b)%nat -> (strided a ratio <= strided b ratio)%nat.
Proof. intros Hr H. unfold strided. apply Nat.div_le_mono; lia. Qed.
Lemma in_step_match t pil m r use_seq ratio mb n sel : pilot_signal t pil m r -> (1 <= ratio)%nat -> (n <= m)%nat ->
  every_nth ratio (limited mb (skipn (unused t use_seq) (nonzero pil))) sel -> in_step t pil m r use_seq ratio mb n ->
  pilots_match (p_rows t) (map (skipn (unused t use_seq)) (p_pilots t)) sel (p_frame_len t) ratio n.
Proof.
  intros Hsig Hratio Hnm Hsel Hst. pose proof (extract_at t pil m r Hsig) as Hx.
  destruct Hsig as ((dat & Hs) & Hm & Hr & Hsq & He & Hnz).
  set (nz := nonzero pil) in *. set (sq0 := unused t use_seq) in *. set (P := length sel).
  assert (Hlen : length (p_pilots t) = length (p_rows t)).
  { apply mapM_length in He || idtac. unfold extract_pilots in He. rewrite (mask_signal_nframes _ _ _ _ Hs) in He. cbn [bind] in He.
    destruct (map Z.of_nat (seq 0 _)) as [|z zs]; [discriminate|]. apply mapM_length in He. rewrite map_length in He. exact He. }
  split; [rewrite map_length; exact Hlen|]. intros k row prow0 Hk Hp0. rewrite nth_error_map in Hp0.
  destruct (Hx k row Hk) as (prow & X1 & X2 & X3 & X4). rewrite X1 in Hp0. cbn [option_map] in Hp0. injection Hp0 as <-.
  rewrite skipn_length.
  assert (Hpn : (length nz <= length prow)%nat) by (destruct Hr as [->| ->]; nia).
  assert (HPlen : P = strided (length (limited mb (skipn sq0 nz))) ratio) by exact (proj1 Hsel).
  assert (HPS : (P <= strided (length prow - sq0) ratio)%nat).
  { rewrite HPlen. apply strided_le; [exact Hratio|]. pose proof (limited_length mb (skipn sq0 nz)) as Hl. rewrite skipn_length in Hl. lia. }
  split; [exact HPS|]. intros q Hq. set (S := strided (length prow - sq0) ratio) in *.
  assert (HP0 : P <> 0%nat) by lia.
  pose proof (Nat.mod_upper_bound q P HP0) as Hqm. pose proof (Nat.div_mod q P HP0) as Hqd.
  assert (Hqf : (q / P < n)%nat) by (apply Nat.div_lt_upper_bound; lia).
  pose proof (sel_nth _ _ _ _ _ (q mod P) Hsel Hqm) as Hpos. fold nz sq0 in Hpos.
  pose proof (nth_error_Some_lt _ _ _ Hpos) as Hjb.
  set (j := (sq0 + q mod P * ratio)%nat) in *.
  set (idx1 := ((q / P) * length nz + j)%nat).
  assert (Hidx1 : (idx1 < m * length nz)%nat) by (unfold idx1; nia).
  assert (Hat : pilot_at sel (p_frame_len t) q = pilot_at nz (p_frame_len t) idx1).
  { unfold pilot_at. fold P. assert (Hd : (idx1 / length nz = q / P)%nat) by (symmetry; apply (Nat.div_unique _ _ _ j); [exact Hjb|unfold idx1; lia]).
    assert (Hmd : (idx1 mod length nz = j)%nat) by (symmetry; apply (Nat.mod_unique _ _ (q / P) j); [exact Hjb|unfold idx1; lia]).
    rewrite Hd, Hmd, (nth_error_nth _ _ 0%nat Hpos). reflexivity. }
  rewrite Hat, (X4 idx1 Hidx1). rewrite tile_nth by lia.
  assert (Hsame : (idx1 mod length prow = sq0 + (q mod S) * ratio)%nat).
  { destruct Hst as [Hn1|(Hmb & [Hrm|[Hu Hdiv]])].
    - assert (Hqp : (q < P)%nat) by (rewrite Hn1, Nat.mul_1_l in Hq; exact Hq).
      pose proof (Nat.div_small q P Hqp) as Hf0. pose proof (Nat.mod_small q P Hqp) as Hqj.
      rewrite (Nat.mod_small q S) by lia. unfold idx1, j. rewrite Hf0, Hqj, Nat.mul_0_l, Nat.add_0_l. apply Nat.mod_small.
      unfold j in Hjb. rewrite Hqj in Hjb. lia.
    - assert (Hlp : length prow = length nz) by (subst r; nia). rewrite Hlp.
      assert (HSP : S = P). { unfold S. rewrite HPlen, Hmb, Hlp. cbn [limited]. rewrite skipn_length. reflexivity. }
      rewrite HSP. symmetry. apply (Nat.mod_unique _ _ (q / P) j); [exact Hjb|unfold idx1; lia].
    - destruct Hr as [Hr1|Hrm].
      + subst r. rewrite Nat.mul_1_l in X2. fold sq0 in Hu. rewrite Hu in *. destruct Hdiv as [c Hc]. rewrite <- nonzero_length in Hc. fold nz in Hc.
        assert (HPc : P = c).
        { rewrite HPlen, Hmb. cbn [limited skipn]. unfold strided. rewrite Hc. symmetry. apply (Nat.div_unique _ _ _ (ratio - 1)); lia. }
        assert (HSc : S = (m * c)%nat).
        { unfold S, strided. rewrite X2, Hu, Hc, Nat.sub_0_r. symmetry. apply (Nat.div_unique _ _ _ (ratio - 1)); lia. }
        assert (Hqc : (q < n * c)%nat) by (rewrite <- HPc; exact Hq).
        rewrite Nat.mod_small by lia. rewrite HSc, (Nat.mod_small q) by nia.
        unfold idx1, j. rewrite Hu, Hc, Nat.add_0_l. rewrite HPc in *. set (d := (q / c)%nat) in *. set (e := (q mod c)%nat) in *. clear -Hqd. rewrite Hqd. ring.
      + assert (Hlp : length prow = length nz) by (subst r; nia). rewrite Hlp.
        assert (HSP : S = P). { unfold S. rewrite HPlen, Hmb, Hlp. cbn [limited]. rewrite skipn_length. reflexivity. }
        rewrite HSP. symmetry. apply (Nat.mod_unique _ _ (q / P) j); [exact Hjb|unfold idx1; lia]. }
  rewrite Hsame.
  assert (Hlt : (sq0 + (q mod S) * ratio < length prow)%nat) by (rewrite <- Hsame; apply Nat.mod_upper_bound; lia).
  destruct (nth_error_lt_Some prow _ Hlt) as [a Ha]. exists a, 1. rewrite nth_error_skipn', Ha.
  split; [reflexivity|]. split; [apply X3; eapply nth_error_In; exact Ha|]. split; [lra|]. f_equal. cring.
Qed.

(** ** constructed signals *)
Lemma pilot_new_fields {A} (junk : A) genp gend fl sq rat n nmodes rd rp s :
  pilot_new junk genp gend fl sq rat n nmodes rd rp = Ok s ->
  p_os s = 1%nat /\ p_frame_len s = fl /\ p_seq_len s = sq /\
  exists dat pil, cal_pilot_idx fl sq rat = Ok (dat, pil) /\ p_idx_dat s = IMask dat /\ p_idx_pil s = IMask pil.
Proof.
  unfold pilot_new. destruct (cal_pilot_idx fl sq rat) as [[dat pil]|]; [|discriminate]. cbn [bind fst snd]. cbv zeta.
  destruct (rows_assign _ _ _); [|discriminate]. cbn [bind]. destruct (rows_assign _ _ _); [|discriminate]. cbn [bind].
  intros H. injection H as <-. cbn [p_os p_frame_len p_seq_len p_idx_dat p_idx_pil].
  repeat (split; [reflexivity|]). exists dat, pil. repeat split.
Qed.
Lemma pilot_new_signal (junk : C) genp gend fl sq rat m nmodes rd s :
  (sq <= fl)%nat -> (0 < fl)%nat -> (rat = 0%nat \/ Nat.divide rat (fl - sq)) -> (1 <= nmodes)%nat -> (1 <= m)%nat ->
  well_shaped nmodes genp -> well_shaped nmodes gend ->
  (forall k row a, In row (genp k) -> In a row -> a <> C0) ->
  pilot_new junk genp gend fl (Z.of_nat sq) (Z.of_nat rat) m nmodes rd true = Ok s ->
  exists pil, (forall k, (k < fl)%nat -> nth_error pil k = Some true <-> pilot_pos sq rat k) /\ count_true pil = n_pilots fl sq rat /\
    pilot_signal s pil m 1 /\ p_frame_len s = fl /\ p_seq_len s = Z.of_nat sq.
Proof.
  intros H1 H2 H3 H4 H5 H6 H7 H8 H9.
  destruct (pilot_new_ok junk genp gend fl sq rat m nmodes rd true H1 H2 H3 H4 H6 H7 (or_introl eq_refl)) as (s' & E1 & E2 & E3 & E4 & E5 & E6 & E7).
  rewrite H9 in E1. injection E1 as <-. destruct (pilot_new_fields _ _ _ _ _ _ _ _ _ _ _ H9) as (F1 & F2 & F3 & dat & pil & F4 & F5 & F6).
  assert (Hr' : rat <> 0%nat -> ((fl - sq) mod rat = 0)%nat).
  { intros Hne. destruct H3 as [|H3]; [lia|]. apply Nat.mod_divide in H3; [exact H3|exact Hne]. }
  rewrite cal_pilot_idx_mask in F4 by assumption. injection F4 as <- <-.
  exists (pil_mask fl sq rat). split; [intros k Hk; destruct (pil_mask_nth fl sq rat k ltac:(assumption) ltac:(assumption) ltac:(assumption)) as (b & B1 & B2); rewrite B1; split; [intros E; injection E as ->; apply B2; reflexivity|intros E; apply B2 in E; rewrite E; reflexivity]|]. split; [apply pil_mask_count|]. split; [|split; [exact F2|exact F3]].
  destruct (E7 H5) as [_ Hx]. split.
  - exists (map negb (pil_mask fl sq rat)). unfold mask_signal. rewrite F2. split; [intros E; rewrite E in E2; cbn in E2; lia|].
    split; [exact E3|]. split; [exact F1|]. split; [exact H2|]. split; [exact F5|]. split; [exact F6|].
    rewrite map_length. pose proof (pil_mask_length fl sq rat H1 Hr'). split; assumption.
  - split; [exact H5|]. split; [left; reflexivity|]. split; [rewrite F3; lia|]. split.
    + rewrite Hx, E5. f_equal. rewrite map_map. apply map_ext. intros r. rewrite tile_1. reflexivity.
    + rewrite E5. apply Forall_forall. intros row Hin. apply in_map_iff in Hin as (r & <- & Hr). apply Forall_forall. intros a Ha.
      unfold tile in Ha. apply in_concat in Ha as (l & Hl & Ha). apply repeat_spec in Hl. subst l. eapply H8; eassumption.
Qed.

(** ** constant phase of a mode *)
Lemma find_const rec refs (theta : nat -> R) : length rec = length refs ->
  (forall l rc rf, nth_error rec l = Some rc -> nth_error refs l = Some rf -> rf <> [] /\ received rf rc (fun _ => theta l)) ->
  exists off, find_pilot_const_phase rec refs = Ok (map Some off) /\ length off = length rec /\
    forall l o, nth_error off l = Some o -> turns (o - theta l).
Proof.
  intros Hl H. pose proof PI_RGT_0 as Hpi.
  assert (Hrow : forall l, (l < length rec)%nat -> let rf := nth l refs [] in let rc := nth l rec [] in
    length rf = length rc /\ rf <> [] /\ turns (Rmean (unwrap (phase_diff rf rc)) - theta l)).
  { intros l Hlt. cbv zeta. pose proof (nth_error_nth' rec [] Hlt) as H1. pose proof (nth_error_nth' refs [] ltac:(rewrite <- Hl; exact Hlt)) as H2.
    destruct (H l _ _ H1 H2) as (Hne & Hrec). split; [symmetry; exact (proj1 Hrec)|]. split; [exact Hne|].
    destruct (phase_diff_received _ _ _ Hrec) as (f & Hf & Ht). rewrite Hf.
    assert (Hq : (1 <= length (nth l refs []))%nat) by (destruct (nth l refs []); [congruence|cbn; lia]).
    rewrite (unwrap_tracks f (fun _ => theta l) (length (nth l refs [])) Hq Ht).
    - unfold Rmean. rewrite frow_length. change (Rsum (frow ?n ?g)) with (rsum n g). rewrite rsum_const.
      assert (0 < INR (length (nth l refs []))) by (apply lt_0_INR; lia).
      match goal with |- turns ?e => replace e with (f 0%nat - theta l) by (field; lra) end. apply Ht. lia.
    - intros q _. replace (theta l - theta l) with 0 by ring. rewrite Rabs_R0. exact Hpi. }
  exists (map (fun l => Rmean (unwrap (phase_diff (nth l refs []) (nth l rec [])))) (seq 0 (length rec))).
  split; [|split; [rewrite map_length, seq_length; reflexivity|]].
  - unfold find_pilot_const_phase. rewrite map_map. apply mapM_ok. intros l Hin. apply in_seq in Hin.
    destruct (Hrow l ltac:(lia)) as (R1 & R2 & _). unfold getn. rewrite (nth_error_nth' refs []) by lia. cbn [bind].
    rewrite (nth_error_nth' rec []) by lia. cbn [bind]. rewrite R1, Nat.eqb_refl. destruct (nth l refs []); [congruence|reflexivity].
  - intros l o Ho. pose proof (nth_error_Some_lt _ _ _ Ho) as Hlt. rewrite map_length, seq_length in Hlt.
    rewrite nth_error_map_seq in Ho by exact Hlt. injection Ho as <-. apply Hrow. exact Hlt.
Qed.
Lemma correct_const tx sig (theta : nat -> R) off : rotated_by (fun k _ => theta k) tx sig -> length off = length tx ->
  (forall l o, nth_error off l = Some o -> turns (o - theta l)) -> correct_pilot_const_phase sig off = Ok tx.
Proof.
  intros [Hl Hr] Ho Ht. unfold correct_pilot_const_phase. rewrite Hl, Ho, Nat.eqb_refl. cbn [negb]. apply f_equal.
  apply nth_error_ext_lt; [rewrite map_length, combine_length; lia|]. intros k Hk. rewrite map_length, combine_length in Hk.
  destruct (nth_error_lt_Some tx k ltac:(lia)) as [row Hrow]. destruct (nth_error_lt_Some off k ltac:(lia)) as [o Hok].
  destruct (Hr k row Hrow) as (r' & R1 & R2 & R3). rewrite nth_error_map, (combine_nth' _ _ _ _ _ R1 Hok), Hrow. cbn [option_map fst snd].
  apply f_equal. apply nth_error_ext_lt; [rewrite map_length; exact R2|]. intros i Hi. rewrite map_length, R2 in Hi.
  destruct (nth_error_lt_Some row i Hi) as [s Hs]. rewrite nth_error_map, (R3 i s Hs), Hs. cbn [option_map]. f_equal.
  replace (s * Cexpi (theta k) * Cexpi (- o))%C with (s * (Cexpi (theta k) * Cexpi (- o)))%C by ring.
  rewrite <- Cexpi_add, (Cexpi_turns _ 0), Cexpi_0; [cring|]. rewrite Rminus_0_r.
  replace (theta k + - o) with (- (o - theta k)) by ring. apply turns_opp. apply Ht. exact Hok.
Qed.

(** ** references that are not in step *)
Lemma pilots_period_wrong : exists genp gend s, pilot_new C0 genp gend 3 1 2 3 1 false true = Ok s /\ well_shaped 1 genp /\ well_shaped 1 gend /\
  (forall k row a, In row (genp k) -> In a row -> a <> C0) /\
  exists out tr row s1, pilot_cpe s 3 1 None 3 false = Ok (out, tr) /\
    nth_error (p_rows s) 0 = Some row /\ nth_error row 1 = Some s1 /\ s1 <> C0 /\
    nth_error (nth 0 out []) 1 = Some (s1 * Cexpi (- (PI / 6)))%C.
Proof.
  set (genp := fun n => [map (fun i => if (i =? 1)%nat then Ci else C1) (seq 0 n)]).
  set (gend := fun n => [repeat C1 n]).
  assert (Hc10 : C1 <> C0) by (intros E; injection E; lra).
  assert (Hci0 : Ci <> C0) by (intros E; injection E; lra).
  set (row := [C1; Ci; C1; C1; Ci; C1; C1; Ci; C1]).
  set (s := mk_psig [row] 1 3 1 [[C1; C1; C1]] [[C1; Ci; C1; Ci; C1; Ci]] (IMask [false; false; true]) (IMask [true; true; false])).
  exists genp, gend, s. split; [reflexivity|]. split; [|split; [|split]].
  - intros n. unfold genp. split; [reflexivity|]. constructor; [|constructor]. rewrite map_length, seq_length. reflexivity.
  - intros n. unfold gend. split; [reflexivity|]. constructor; [|constructor]. apply repeat_length.
  - intros k r a [<-|[]] Ha. apply in_map_iff in Ha as (i & <- & _). destruct (i =? 1)%nat; assumption.
  - pose proof PI_RGT_0 as Hpi.
    set (ph := fun k q : nat => if (q =? 1)%nat then PI / 2 else 0).
    assert (Hi : Cexpi (PI / 2) = Ci) by (unfold Cexpi; rewrite cos_PI2, sin_PI2; reflexivity).
    destruct (cpe_ok [row] [[Ci; C1; Ci; C1; Ci]] [1%nat] 3 3 1 None 3 [1%nat] ph 9) as (out & tr & E1 & E2 & E3 & E4).
    + lia.
    + lia.
    + split; [reflexivity|]. intros i. rewrite Nat.mul_1_r. reflexivity.
    + intros i j a b Hij Hi1 Hj1. destruct j as [|[|j]]; [lia|discriminate|discriminate].
    + intros k [<-|[]]. lia.
    + discriminate.
    + constructor; [reflexivity|constructor].
    + lia.
    + reflexivity.
    + cbn. lia.
    + intros k prow Hk. destruct k as [|k]; [|destruct k; discriminate]. injection Hk as <-. cbn. lia.
    + intros k rw prow q Hk Hp Hq. destruct k as [|k]; [|destruct k; discriminate]. injection Hk as <-. injection Hp as <-.
      change (3 * length [1%nat])%nat with 3%nat in Hq.
      destruct q as [|[|[|q]]]; [| | |lia]; [exists Ci, 1|exists C1, 1|exists Ci, 1]; (split; [reflexivity|]); (split; [assumption|]); (split; [lra|]).
      * unfold ph. cbn [Nat.eqb]. rewrite Cexpi_0. cbv [pilot_at nth nth_error length Nat.modulo Nat.div Nat.divmod fst snd Nat.sub Nat.mul Nat.add row]. f_equal. cring.
      * unfold ph. cbn [Nat.eqb]. rewrite Hi. cbv [pilot_at nth nth_error length Nat.modulo Nat.div Nat.divmod fst snd Nat.sub Nat.mul Nat.add row]. f_equal. cring.
      * unfold ph. cbn [Nat.eqb]. rewrite Cexpi_0. cbv [pilot_at nth nth_error length Nat.modulo Nat.div Nat.divmod fst snd Nat.sub Nat.mul Nat.add row]. f_equal. cring.
    + intros k q _ Hq. unfold ph. change (3 * length [1%nat])%nat with 3%nat in Hq.
      destruct q as [|[|q]]; [| |lia]; cbn [Nat.eqb]; unfold Rabs; destruct (Rcase_abs _); lra.
    + exists out, tr, row, Ci. split; [exact E1|]. split; [reflexivity|]. split; [reflexivity|]. split; [assumption|].
      destruct (E4 0%nat ltac:(cbn; lia)) as (c & C1' & C2). specialize (C2 1%nat ltac:(lia)).
      destruct C2 as (I1 & _). change ((odd_up 3 - 1) / 2)%nat with 1%nat in I1.
      specialize (I1 ltac:(cbv; lia)). cbv beta in I1.
      destruct E3 as [O1 O2]. destruct (O2 0%nat row eq_refl) as (r' & R1 & R2 & R3).
      rewrite (nth_error_nth out 0 [] R1), (R3 1%nat Ci eq_refl). apply f_equal. f_equal. apply Cexpi_turns.
      rewrite I1. unfold mean_at. change (odd_up 3) with 3%nat. rewrite !rsum_S, rsum_0. unfold ph.
      cbn [Nat.add Nat.sub Nat.eqb INR].
      match goal with |- turns ?e => replace e with (- c) by field end. apply turns_opp. exact C1'.
Qed.
Lemma blocks_limit_wrong : exists genp gend s, pilot_new C0 genp gend 6 0 2 2 1 false true = Ok s /\ well_shaped 1 genp /\ well_shaped 1 gend /\
  (forall k row a, In row (genp k) -> In a row -> a <> C0) /\
  exists out tr row s1, pilot_cpe s 3 1 (Some 2%nat) 2 false = Ok (out, tr) /\
    nth_error (p_rows s) 0 = Some row /\ nth_error row 0 = Some s1 /\ s1 <> C0 /\
    nth_error (nth 0 out []) 0 = Some (s1 * Cexpi (PI / 6))%C.
Proof.
  set (genp := fun n => [map (fun i => if (i =? 2)%nat then Ci else C1) (seq 0 n)]).
  set (gend := fun n => [repeat C1 n]).
  assert (Hc10 : C1 <> C0) by (intros E; injection E; lra).
  assert (Hci0 : Ci <> C0) by (intros E; injection E; lra).
  set (row := [C1; C1; C1; C1; Ci; C1; C1; C1; C1; C1; Ci; C1]).
  set (s := mk_psig [row] 1 6 0 [[C1; C1; C1; C1; C1; C1]] [[C1; C1; Ci; C1; C1; Ci]]
     (IMask [false; true; false; true; false; true]) (IMask [true; false; true; false; true; false])).
  exists genp, gend, s. split; [reflexivity|]. split; [|split; [|split]].
  - intros n. unfold genp. split; [reflexivity|]. constructor; [|constructor]. rewrite map_length, seq_length. reflexivity.
  - intros n. unfold gend. split; [reflexivity|]. constructor; [|constructor]. apply repeat_length.
  - intros k r a [<-|[]] Ha. apply in_map_iff in Ha as (i & <- & _). destruct (i =? 2)%nat; assumption.
  - pose proof PI_RGT_0 as Hpi.
    set (ph := fun k q : nat => if (q =? 2)%nat then - (PI / 2) else 0).
    assert (Hi : Cexpi (- (PI / 2)) = (- Ci)%C) by (rewrite Cexpi_neg; unfold Cexpi; rewrite cos_PI2, sin_PI2; cring).
    destruct (cpe_ok [row] [[C1; C1; Ci; C1; C1; Ci]] [0%nat; 2%nat; 4%nat] 6 3 1 (Some 2%nat) 2 [0%nat; 2%nat] ph 12) as (out & tr & E1 & E2 & E3 & E4).
    + lia.
    + lia.
    + split; [reflexivity|]. intros i. rewrite Nat.mul_1_r. reflexivity.
    + intros i j a b Hij Hi1 Hj1. destruct j as [|[|j]]; [lia| |destruct j; discriminate]. destruct i as [|i]; [|lia]. injection Hi1 as <-. injection Hj1 as <-. lia.
    + intros k [<-|[<-|[]]]; lia.
    + discriminate.
    + constructor; [reflexivity|constructor].
    + lia.
    + reflexivity.
    + cbn. lia.
    + intros k prow Hk. destruct k as [|k]; [|destruct k; discriminate]. injection Hk as <-. cbn. lia.
    + intros k rw prow q Hk Hp Hq. destruct k as [|k]; [|destruct k; discriminate]. injection Hk as <-. injection Hp as <-.
      change (2 * length [0%nat; 2%nat])%nat with 4%nat in Hq.
      destruct q as [|[|[|[|q]]]]; [| | | |lia]; [exists C1, 1|exists C1, 1|exists Ci, 1|exists C1, 1]; (split; [reflexivity|]); (split; [assumption|]); (split; [lra|]);
      unfold ph; cbn [Nat.eqb]; rewrite ?Cexpi_0, ?Hi; cbv [pilot_at nth nth_error length Nat.modulo Nat.div Nat.divmod fst snd Nat.sub Nat.mul Nat.add row]; f_equal; cring.
    + intros k q _ Hq. unfold ph. change (2 * length [0%nat; 2%nat])%nat with 4%nat in Hq.
      destruct q as [|[|[|q]]]; [| | |lia]; cbn [Nat.eqb]; unfold Rabs; destruct (Rcase_abs _); lra.
    + exists out, tr, row, C1. split; [exact E1|]. split; [reflexivity|]. split; [reflexivity|]. split; [assumption|].
      destruct (E4 0%nat ltac:(cbn; lia)) as (c & C1' & C2). specialize (C2 0%nat ltac:(lia)).
      destruct C2 as (I1 & _). change ((odd_up 3 - 1) / 2)%nat with 1%nat in I1.
      specialize (I1 ltac:(cbv; lia)). cbv beta in I1.
      destruct E3 as [O1 O2]. destruct (O2 0%nat row eq_refl) as (r' & R1 & R2 & R3).
      rewrite (nth_error_nth out 0 [] R1), (R3 0%nat C1 eq_refl). apply f_equal. f_equal. apply Cexpi_turns.
      rewrite I1. unfold mean_at. change (odd_up 3) with 3%nat. rewrite !rsum_S, rsum_0. unfold ph.
      cbn [Nat.add Nat.sub Nat.eqb INR].
      match goal with |- turns ?e => replace e with (- c) by field end. apply turns_opp. exact C1'.
Qed.
