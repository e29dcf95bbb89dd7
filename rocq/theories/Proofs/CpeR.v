(** The periodic-pilot phase estimator: recovery of the transmitted symbols. *)
From Coq Require Import List Arith ZArith Bool Lia Reals Lra.
From Verif Require Import Common.Py Common.ListX Common.Cplx Common.SumX Common.Angle Model.Windows Model.Quality Model.Sync Model.Phase Model.PilotCpe
  Spec.Seq Spec.Equal Spec.Win Spec.Frames Spec.PhaseSpec Spec.CpeS Proofs.WindowsP Proofs.PhaseP Proofs.PhaseQ Proofs.PhaseV Proofs.PhaseR Proofs.CpeP Proofs.CpeQ.
Import ListNotations.
Local Open Scope R_scope.

Lemma cpe_multiple rec refs L nref bl N u mb remove r : (1 <= bl)%nat -> (1 <= u)%nat -> rec <> [] -> rect rec L -> refs <> [] -> rect refs nref ->
  pilot_based_cpe rec refs bl N u mb remove = Ok r -> (used_blocks L nref bl u mb mod u = 0)%nat.
Proof.
  intros Hb Hu Hrec HL Hrefs Hn. rewrite (cpe_norm rec refs L nref bl N u mb _ Hb Hu Hrec HL Hrefs Hn). cbv zeta.
  destruct (used_le L nref bl u mb Hb Hu) as (U1 & _). set (B := used_blocks L nref bl u mb) in *. clearbody B.
  destruct (B <=? u)%nat; [discriminate|]. unfold cpe_core. destruct (_ <=? N)%nat; [discriminate|]. cbv zeta. destruct (broadcast_rows _ _) as [prs|e]; [|discriminate]. cbn [bind].
  destruct (mapM _ (map _ prs)) as [avg|e]; [|discriminate]. cbn [bind]. destruct (negb _); [discriminate|]. set (n := row_len _).
  match goal with |- context [mapM ?f ?l] => destruct (mapM f l) as [tr|e] eqn:E end; [|discriminate]. intros _.
  destruct (mapM_nth _ _ _ 0%nat 0%nat E) as (t & _ & T).
  { rewrite nth_error_seq; [reflexivity|]. destruct rec; [congruence|cbn; lia]. }
  cbn beta in T. destruct (getn _ 0) as [p|]; [|discriminate]. cbn [bind] in T.
  destruct (mapM _ (seq 0 (n * bl * u))) as [y|] eqn:Ey; [|discriminate]. cbn [bind] in T. apply mapM_length in Ey. rewrite seq_length in Ey.
  destruct (row_len_map' (firstn (B * bl)) rec Hrec) as (r0 & Hr0 & Er). rewrite Er in T. rewrite firstn_length in T.
  unfold rect in HL. rewrite Forall_forall in HL. rewrite (HL r0 Hr0), Nat.min_l in T by exact U1. rewrite Ey in T.
  destruct (Nat.eqb_spec (n * bl * u) (B * bl)) as [Q|Q]; [|discriminate].
  assert (B = n * u)%nat by nia. subst B. apply Nat.mod_mul. lia.
Qed.
Section Main.
Variables (tx rec refs : list (list C)) (L nref bl N u : nat) (mb : option nat) (ph : nat -> nat -> R).
Let B := used_blocks L nref bl u mb.
Let n := (B / u)%nat.
Let h := ((odd_up N - 1) / 2)%nat.
Let d := (bl * u)%nat.
Hypothesis (Hb : (1 <= bl)%nat) (Hu : (1 <= u)%nat) (HB : (B mod u = 0)%nat) (HuB : (u < B)%nat) (HN : (N < n)%nat).
Hypothesis (Htx : shape tx 2 L) (Hrefs : shape refs 2 nref).
Hypothesis (Hpil : block_pilots tx refs bl u n).
Hypothesis (Hrot : rotated_by ph tx rec).
Hypothesis (Hstep : forall k q, (k < 2)%nat -> (S q < n)%nat -> Rabs (ph k (S q * d)%nat - ph k (q * d)%nat) < PI).
Lemma odd_N : odd_up N = (2 * h + 1)%nat /\ (2 * h + 1 <= n)%nat.
Proof.
  assert (O : Nat.odd (odd_up N) = true).
  { unfold odd_up. destruct (Nat.odd N) eqn:E; [exact E|]. rewrite Nat.odd_succ, <- Nat.negb_odd, E. reflexivity. }
  assert (E := odd_half _ O). fold h in E. split; [exact E|]. unfold odd_up in E. destruct (Nat.odd N); lia.
Qed.
Lemma B_n : B = (u * n)%nat.
Proof. unfold n. pose proof (Nat.div_mod B u ltac:(lia)) as H. rewrite HB in H. lia. Qed.
Lemma row_main k row prow : (k < 2)%nat -> nth_error rec k = Some row -> nth_error refs k = Some prow ->
  let base := unwrap (phase_diff (stride u (firstn B prow)) (stride u (firstn B (stride bl row)))) in
  length (stride u (firstn B prow)) = n /\
  exists c, turns c /\ exists avg, moving_average_real base (odd_up N) = Ok avg /\
    cpe_phases (odd_up N) base avg = frow n (fun q => edge_mean (fun i => ph k (i * d)%nat) n h q + c).
Proof.
  intros Hk Hrow Hprow. cbv zeta. destruct odd_N as (ON & Hh). destruct Htx as (T1 & T2). destruct Hrefs as (F1 & F2). destruct Hrot as (R1 & R2).
  unfold rect in T2, F2. rewrite Forall_forall in T2, F2. destruct (used_le L nref bl u mb Hb Hu) as (U1 & U2). fold B in U1, U2.
  destruct (nth_error_lt_Some tx k ltac:(lia)) as (t & Ht). destruct (R2 k t Ht) as (row' & Q1 & Q2 & Q3). assert (row' = row) by congruence. subst row'.
  assert (Lt : length t = L) by (apply T2; eapply nth_error_In; exact Ht). assert (Lp : length prow = nref) by (apply F2; eapply nth_error_In; exact Hprow).
  destruct (picked_row row prow bl u n (ph k) B Hb Hu B_n) as (P1 & P2); [lia|lia| |].
  { intros q Hq. destruct (Hpil k t prow q Ht Hprow Hq) as (a & rho & A1 & A2 & A3 & A4). exists a, rho. split; [exact A1|]. split; [exact A2|]. split; [exact A3|].
    rewrite (Q3 _ _ A4). f_equal. cring. }
  destruct (base_row _ _ _ n P1 ltac:(lia) P2) as (c & Hc & Eb). { intros q Hq. apply Hstep; assumption. }
  split; [exact P1|]. exists c. split; [exact Hc|]. fold d in Eb. exists (frow (n + 1 - (2 * h + 1)) (fun i => mean_at (fun q => ph k (q * d)%nat + c) i (2 * h + 1))). rewrite Eb, ON. split.
  - apply mavg_real. lia.
  - apply (phases_row n h (fun i => ph k (i * d)%nat) c Hh).
Qed.
Lemma cpe_recover : exists out tr, pilot_based_cpe rec refs bl N u mb false = Ok (out, tr) /\ length tr = 2%nat /\
  rotated_by (fun k t => ph k t - cell 0 tr k t) (map (firstn (B * bl)) tx) out /\
  forall k, (k < 2)%nat -> exists c, turns c /\ forall t, (t < B * bl)%nat ->
    interpolates (fun q => (q * d)%nat) (fun q => edge_mean (fun i => ph k (i * d)%nat) n h q + c) 0 (n - 1) t (cell 0 tr k t).
Proof.
  destruct odd_N as (ON & Hh). pose proof B_n as HBn. destruct Htx as (T1 & T2). pose proof Hrot as (R1 & R2). destruct (used_le L nref bl u mb Hb Hu) as (U1 & U2). fold B in U1, U2.
  assert (Hrec : rect rec L).
  { unfold rect in *. rewrite Forall_forall in *. intros r Hr. apply In_nth_error in Hr as (k & Hk). destruct (nth_error_lt_Some tx k) as (t & Ht); [apply nth_error_Some_lt in Hk; lia|].
    destruct (R2 k t Ht) as (r' & Q1 & Q2 & _). assert (r' = r) by congruence. subst r'. rewrite Q2. apply T2. eapply nth_error_In; exact Ht. }
  assert (Lrec : length rec = 2%nat) by congruence. pose proof Hrefs as (F1 & F2).
  assert (N1 : rec <> []) by (intros X; rewrite X in Lrec; discriminate). assert (N2 : refs <> []) by (intros X; rewrite X in F1; discriminate).
  rewrite (cpe_norm rec refs L nref bl N u mb _ Hb Hu N1 Hrec N2 F2). cbv zeta. fold B. destruct (Nat.leb_spec B u); [lia|].
  assert (RM := row_main).
  destruct rec as [|r0 [|r1 [|]]] eqn:Er; try discriminate. destruct refs as [|p0 [|p1 [|]]] eqn:Ep; try discriminate.
  destruct (RM 0%nat r0 p0 ltac:(lia) eq_refl eq_refl) as (M0 & c0 & C0' & a0 & A0 & P0).
  destruct (RM 1%nat r1 p1 ltac:(lia) eq_refl eq_refl) as (M1 & c1 & C1' & a1 & A1 & P1). clear RM.
  unfold cpe_core. fold (odd_up N). cbn [map row_len]. rewrite M0. destruct (Nat.leb_spec n N); [lia|]. cbv zeta. unfold broadcast_rows. cbn [length Nat.eqb combine bind map fst snd mapM].
  rewrite A0, A1. cbn [bind length Nat.eqb negb combine map fst snd row_len seq mapM getn nth_error]. rewrite P0, P1, frow_length.
  assert (Hd : (1 <= d)%nat) by (unfold d; nia).
  assert (HT : (n * bl * u)%nat = (B * bl)%nat) by (rewrite HBn; lia). fold d.
  destruct (trace_row n d (fun q => edge_mean (fun i => ph 0%nat (i * d)%nat) n h q + c0) (B * bl) ltac:(lia) Hd) as (t0 & E0 & L0 & I0).
  destruct (trace_row n d (fun q => edge_mean (fun i => ph 1%nat (i * d)%nat) n h q + c1) (B * bl) ltac:(lia) Hd) as (t1 & E1 & L1 & I1).
  cbn [getn nth_error bind]. rewrite HT, E0, E1. cbn [bind].
  assert (Lr0 : length r0 = L) by (unfold rect in Hrec; rewrite Forall_forall in Hrec; apply Hrec; left; reflexivity).
  assert (Lr1 : length r1 = L) by (unfold rect in Hrec; rewrite Forall_forall in Hrec; apply Hrec; right; left; reflexivity).
  rewrite firstn_length, Lr0, Nat.min_l, L0, L1, Nat.eqb_refl by lia. cbn [bind map].
  destruct (rotate_rows_ok [firstn (B * bl) r0; firstn (B * bl) r1] [map Ropp t0; map Ropp t1]) as (out & Eo).
  { constructor; [|constructor; [|constructor]]; rewrite firstn_length, map_length; lia. }
  rewrite Eo. cbn [bind]. exists out, [t0; t1]. split; [reflexivity|]. split; [reflexivity|].
  apply rotate_rows_spec in Eo as (_ & _ & (O1 & O2)). split.
  - split; [rewrite O1, map_length; cbn; congruence|]. intros k row Hk. rewrite nth_error_map in Hk. destruct (nth_error tx k) as [t|] eqn:Ek; [|discriminate]. cbn [option_map] in Hk.
    assert (row = firstn (B * bl) t) by congruence. subst row. clear Hk. destruct (R2 k t Ek) as (r & Q1 & Q2 & Q3).
    assert (Lt : length t = L) by (unfold rect in T2; rewrite Forall_forall in T2; apply T2; eapply nth_error_In; exact Ek).
    destruct (O2 k (firstn (B * bl) r)) as (r' & S1 & S2 & S3).
    { destruct k as [|[|k]]; cbn in Q1 |- *; [congruence|congruence|destruct k; discriminate]. }
    exists r'. split; [exact S1|]. split; [rewrite S2, !firstn_length, Q2; reflexivity|]. intros i s Hs.
    assert (Hi : (i < B * bl)%nat) by (apply nth_error_Some_lt in Hs; rewrite firstn_length in Hs; lia). rewrite nth_error_firstn_lt in Hs by exact Hi.
    rewrite (S3 i (s * Cexpi (ph k i))%C) by (rewrite nth_error_firstn_lt by exact Hi; apply Q3; exact Hs). f_equal.
    replace (s * Cexpi (ph k i) * Cexpi (cell 0 [map Ropp t0; map Ropp t1] k i))%C with (s * (Cexpi (ph k i) * Cexpi (cell 0 [map Ropp t0; map Ropp t1] k i)))%C by ring.
    rewrite <- Cexpi_add. do 2 f_equal. unfold Rminus. f_equal. unfold cell. destruct k as [|[|k]]; cbn [nth].
    + rewrite (nth_indep (map Ropp t0) 0 (Ropp 0)) by (rewrite map_length; lia). apply map_nth.
    + rewrite (nth_indep (map Ropp t1) 0 (Ropp 0)) by (rewrite map_length; lia). apply map_nth.
    + apply nth_error_Some_lt in Ek. lia.
  - intros k Hk. destruct k as [|[|k]]; [| |lia].
    + exists c0. split; [exact C0'|]. intros t Ht. destruct (I0 t Ht) as (y & Y1 & Y2). unfold cell. cbn [nth]. rewrite (nth_error_nth t0 t 0 Y1). exact Y2.
    + exists c1. split; [exact C1'|]. intros t Ht. destruct (I1 t Ht) as (y & Y1 & Y2). unfold cell. cbn [nth]. rewrite (nth_error_nth t1 t 0 Y1). exact Y2.
Qed.
Lemma edge_const a q : edge_mean (fun _ => a) n h q = a.
Proof. unfold edge_mean. destruct (q <? h)%nat; [reflexivity|]. apply mean_const. lia. Qed.
Lemma cpe_const (theta : nat -> R) : (forall k t, ph k t = theta k) ->
  exists tr, pilot_based_cpe rec refs bl N u mb false = Ok (map (firstn (B * bl)) tx, tr).
Proof.
  intros Hth. destruct odd_N as (_ & Hh). destruct cpe_recover as (out & tr & E1 & E2 & E3 & E4). exists tr. rewrite E1. do 2 f_equal.
  eapply rotated_exact; [exact E3|]. intros k row t Hk Ht. rewrite nth_error_map in Hk. destruct (nth_error tx k) as [r|] eqn:Ek; [|discriminate].
  cbn [option_map] in Hk. assert (row = firstn (B * bl) r) by congruence. subst row. rewrite firstn_length in Ht.
  destruct (E4 k) as (c & C1 & C2); [apply nth_error_Some_lt in Ek; destruct Htx; lia|].
  rewrite (interpolates_const (fun q => (q * d)%nat) _ 0 (n - 1) t (cell 0 tr k t) (theta k + c)) with (4 := C2 t ltac:(lia)).
  - rewrite Hth. replace (theta k - (theta k + c)) with (- c) by ring. apply turns_opp. exact C1.
  - lia.
  - intros q Hq. assert ((1 <= d)%nat) by (unfold d; nia). nia.
  - intros q _. apply (f_equal (fun z => z + c)). etransitivity; [|exact (edge_const (theta k) q)]. unfold edge_mean. destruct (q <? h)%nat; [apply Hth|]. apply mean_at_ext. intros j _. apply Hth.
Qed.
Lemma cpe_line (a b : nat -> R) : (forall k t, ph k t = a k + b k * INR t) ->
  exists out tr, pilot_based_cpe rec refs bl N u mb false = Ok (out, tr) /\ length out = 2%nat /\
    forall k row, nth_error tx k = Some row -> exists row', nth_error out k = Some row' /\ length row' = (B * bl)%nat /\
      (forall t, (t <= (n - 1 - h) * d)%nat -> nth_error row' t = nth_error row t) /\
      (forall t s, ((n - 1 - h) * d <= t)%nat -> (t < B * bl)%nat -> nth_error row t = Some s ->
         nth_error row' t = Some (s * Cexpi (b k * (INR t - INR ((n - 1 - h) * d))))%C).
Proof.
  intros Hth. destruct odd_N as (_ & Hh). destruct cpe_recover as (out & tr & E1 & E2 & (O1 & O2) & E4). exists out, tr. destruct Htx as (T1 & T2).
  split; [exact E1|]. rewrite map_length in O1. split; [congruence|]. intros k row Hrow. destruct (used_le L nref bl u mb Hb Hu) as (U1 & U2). fold B in U1, U2.
  destruct (O2 k (firstn (B * bl) row)) as (r' & R1 & R2 & R3); [rewrite nth_error_map, Hrow; reflexivity|].
  assert (Hl : length row = L) by (unfold rect in T2; rewrite Forall_forall in T2; apply T2; eapply nth_error_In; exact Hrow).
  assert (Hd : (1 <= d)%nat) by (unfold d; nia). assert (Hend : (n * d = B * bl)%nat) by (rewrite B_n; unfold d; lia).
  exists r'. split; [exact R1|]. split; [rewrite R2, firstn_length; lia|].
  destruct (E4 k) as (c & C1 & C2); [apply nth_error_Some_lt in Hrow; lia|].
  set (v := fun q => edge_mean (fun i => ph k (i * d)%nat) n h q + c) in *.
  assert (V1 : forall q, (q <= n - 1 - h)%nat -> v q = (a k + c) + b k * INR (q * d)).
  { intros q Hq. unfold v, edge_mean. destruct (Nat.ltb_spec q h) as [Q|Q]; [rewrite Hth; ring|].
    rewrite (mean_at_ext _ (fun i => a k + (b k * INR d) * INR i)) by (intros j _; rewrite Hth, mult_INR; ring).
    rewrite mean_affine, Nat.min_l by lia. replace (q - h + h)%nat with q by lia. rewrite mult_INR. ring. }
  assert (V2 : forall q, (n - 1 - h <= q)%nat -> v q = v (n - 1 - h)%nat).
  { intros q Hq. unfold v, edge_mean. destruct (Nat.ltb_spec q h); [lia|]. destruct (Nat.ltb_spec (n - 1 - h) h); [lia|]. rewrite !Nat.min_r by lia. reflexivity. }
  assert (Hinc : forall q, (q * d < S q * d)%nat) by (intros q; nia).
  split.
  - intros t Ht. assert (Htl : (t < B * bl)%nat) by nia. destruct (nth_error_lt_Some row t ltac:(lia)) as (s & Hs).
    rewrite (R3 t s) by (rewrite nth_error_firstn_lt by exact Htl; exact Hs). rewrite Hs. f_equal.
    assert (Y : cell 0 tr k t = a k + c + b k * INR t).
    { apply (interpolates_affine (fun q => (q * d)%nat) v 0 (n - 1 - h) t); [lia|intros q _; apply Hinc|intros q Hq; apply V1; lia| |nia].
      destruct (C2 t Htl) as (I1 & I2 & I3). split; [exact I1|]. split; [|intros q Hq; apply I3; lia].
      intros Hge. assert (t = ((n - 1 - h) * d)%nat) by lia. subst t.
      destruct (Nat.eq_dec (n - 1 - h) (n - 1)) as [Z|Z]; [rewrite Z in *; apply I2; lia|].
      assert (H3 := I3 (n - 1 - h)%nat ltac:(lia) ltac:(nia)). assert (0 < INR (S (n - 1 - h) * d) - INR ((n - 1 - h) * d)).
      { apply Rlt_Rminus, lt_INR, Hinc. }
      apply (Rmult_eq_reg_r (INR (S (n - 1 - h) * d) - INR ((n - 1 - h) * d))); [|lra]. rewrite H3. ring. }
    rewrite Y, Hth, (Cexpi_turns _ 0), Cexpi_0; [cring|]. rewrite Rminus_0_r. replace (a k + b k * INR t - (a k + c + b k * INR t)) with (- c) by ring. apply turns_opp. exact C1.
  - intros t s Hge Htl Hs. rewrite (R3 t s) by (rewrite nth_error_firstn_lt by exact Htl; exact Hs). f_equal. f_equal.
    assert (Y : cell 0 tr k t = v (n - 1 - h)%nat).
    { apply (interpolates_const (fun q => (q * d)%nat) v (n - 1 - h) (n - 1) t); [lia|intros q _; apply Hinc|intros q Hq; apply V2; lia|].
      destruct (C2 t Htl) as (I1 & I2 & I3). split; [|split; [exact I2|intros q Hq; apply I3; lia]].
      intros Hle. assert (t = ((n - 1 - h) * d)%nat) by lia. subst t.
      destruct (Nat.eq_dec (n - 1 - h) (n - 1)) as [Z|Z]; [rewrite Z in *; apply I2; lia|].
      assert (H3 := I3 (n - 1 - h)%nat ltac:(lia) ltac:(nia)). assert (0 < INR (S (n - 1 - h) * d) - INR ((n - 1 - h) * d)).
      { apply Rlt_Rminus, lt_INR, Hinc. }
      apply (Rmult_eq_reg_r (INR (S (n - 1 - h) * d) - INR ((n - 1 - h) * d))); [|lra]. rewrite H3. ring. }
    rewrite Y, (V1 (n - 1 - h)%nat) by lia. rewrite Hth. apply Cexpi_turns.
    replace (a k + b k * INR t - (a k + c + b k * INR ((n - 1 - h) * d)) - b k * (INR t - INR ((n - 1 - h) * d))) with (- c) by ring. apply turns_opp. exact C1.
Qed.
End Main.
