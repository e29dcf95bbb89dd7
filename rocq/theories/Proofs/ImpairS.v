(** Proofs about quantisers, clipper, modulator, noise and simulate_transmission. *)
From Coq Require Import List ZArith Arith Bool Reals Lra Lia Psatz.
From Coq Require Import ZifyBool ZifyNat ZifyN.
From Verif Require Import Common.Py Common.Cplx Common.SumX Common.Angle Common.ListX Common.Dft
  Model.Helpers Model.Phase Model.Impair Spec.Seq Spec.Equal Spec.ImpairSpec Spec.PhaseSpec Proofs.PhaseQ Proofs.ImpairP Proofs.ImpairQ Proofs.ImpairR.
Import ListNotations.
Local Open Scope R_scope.

(** ** maxima *)
Lemma fold_Rmax_in l a : In (fold_left Rmax l a) (a :: l).
Proof.
  revert a. induction l as [|b l IH]; intros a; [left; reflexivity|]. cbn [fold_left].
  destruct (IH (Rmax a b)) as [H|H]; [|right; right; exact H]. rewrite <- H.
  unfold Rmax. destruct (Rle_dec a b); [right; left; reflexivity|left; reflexivity].
Qed.
Lemma fold_Rmax_ge l a x : In x (a :: l) -> x <= fold_left Rmax l a.
Proof.
  revert a x. induction l as [|b l IH]; intros a x H; cbn [fold_left].
  - destruct H as [<-|[]]. lra.
  - destruct H as [<-|[<-|H]].
    + eapply Rle_trans; [apply (Rmax_l a b)|]. apply IH. left. reflexivity.
    + eapply Rle_trans; [apply (Rmax_r a b)|]. apply IH. left. reflexivity.
    + apply IH. right. exact H.
Qed.
Lemma fold_Rmin_in l a : In (fold_left Rmin l a) (a :: l).
Proof.
  revert a. induction l as [|b l IH]; intros a; [left; reflexivity|]. cbn [fold_left].
  destruct (IH (Rmin a b)) as [H|H]; [|right; right; exact H]. rewrite <- H.
  unfold Rmin. destruct (Rle_dec a b); [left; reflexivity|right; left; reflexivity].
Qed.
Lemma fold_Rmin_le l a x : In x (a :: l) -> fold_left Rmin l a <= x.
Proof.
  revert a x. induction l as [|b l IH]; intros a x H; cbn [fold_left].
  - destruct H as [<-|[]]. lra.
  - destruct H as [<-|[<-|H]].
    + eapply Rle_trans; [apply IH; left; reflexivity|apply Rmin_l].
    + eapply Rle_trans; [apply IH; left; reflexivity|apply Rmin_r].
    + apply IH. right. exact H.
Qed.
Lemma rmaxl_spec l m : rmaxl l = Ok m <-> In m l /\ forall x, In x l -> x <= m.
Proof.
  destruct l as [|a l]; cbn [rmaxl].
  - split; [discriminate|intros [[] _]].
  - split.
    + intros H. injection H as <-. split; [apply fold_Rmax_in|apply fold_Rmax_ge].
    + intros [H1 H2]. f_equal. apply Rle_antisym; [apply H2, fold_Rmax_in|apply fold_Rmax_ge; exact H1].
Qed.
Lemma rminl_spec l m : rminl l = Ok m <-> In m l /\ forall x, In x l -> m <= x.
Proof.
  destruct l as [|a l]; cbn [rminl].
  - split; [discriminate|intros [[] _]].
  - split.
    + intros H. injection H as <-. split; [apply fold_Rmin_in|apply fold_Rmin_le].
    + intros [H1 H2]. f_equal. apply Rle_antisym; [apply fold_Rmin_le; exact H1|apply H2, fold_Rmin_in].
Qed.

Lemma row_peak_spec row a : peak a row -> row_peak row = Ok a.
Proof.
  intros [H1 (z & Hz & Hza)]. unfold row_peak.
  assert (Hne : row <> []) by (intros ->; contradiction).
  destruct (rmaxl (map (fun z => Rabs (fst z)) row)) as [u|e] eqn:Eu; [|destruct row; [contradiction|discriminate]].
  destruct (rmaxl (map (fun z => Rabs (snd z)) row)) as [v|e] eqn:Ev; [|destruct row; [contradiction|discriminate]].
  apply rmaxl_spec in Eu as [Iu Mu]. apply rmaxl_spec in Ev as [Iv Mv]. cbn [bind]. f_equal.
  assert (u <= a) by (apply in_map_iff in Iu; destruct Iu as (w & <- & Hw); apply H1; exact Hw).
  assert (v <= a) by (apply in_map_iff in Iv; destruct Iv as (w & <- & Hw); apply H1; exact Hw).
  assert (a <= Rmax u v).
  { destruct Hza as [<-|<-].
    - eapply Rle_trans; [|apply Rmax_l]. apply Mu. apply (in_map (fun z => Rabs (fst z))). exact Hz.
    - eapply Rle_trans; [|apply Rmax_r]. apply Mv. apply (in_map (fun z => Rabs (snd z))). exact Hz. }
  apply Rle_antisym; [apply Rmax_lub; assumption|assumption].
Qed.
Lemma row_peak_ex row : row <> [] -> exists a, row_peak row = Ok a /\ peak a row.
Proof.
  intros Hne. unfold row_peak.
  destruct (rmaxl (map (fun z => Rabs (fst z)) row)) as [u|e] eqn:Eu; [|destruct row; [contradiction|discriminate]].
  destruct (rmaxl (map (fun z => Rabs (snd z)) row)) as [v|e] eqn:Ev; [|destruct row; [contradiction|discriminate]].
  apply rmaxl_spec in Eu as [Iu Mu]. apply rmaxl_spec in Ev as [Iv Mv]. cbn [bind]. eexists. split; [reflexivity|]. split.
  - intros z Hz. split.
    + eapply Rle_trans; [|apply Rmax_l]. apply Mu. apply (in_map (fun z => Rabs (fst z))). exact Hz.
    + eapply Rle_trans; [|apply Rmax_r]. apply Mv. apply (in_map (fun z => Rabs (snd z))). exact Hz.
  - unfold Rmax. destruct (Rle_dec u v).
    + apply in_map_iff in Iv. destruct Iv as (w & <- & Hw). exists w. auto.
    + apply in_map_iff in Iu. destruct Iu as (w & <- & Hw). exists w. auto.
Qed.

(** ** quantisers *)
Lemma linspace_nth lo hi n k : (k < n)%nat -> nth_error (linspace lo hi n) k = Some (lo + INR k * ((hi - lo) / (INR n - 1))).
Proof. intros H. unfold linspace. rewrite nth_error_map_seq by exact H. reflexivity. Qed.
Lemma linspace_length lo hi n : length (linspace lo hi n) = n.
Proof. unfold linspace. rewrite map_length, seq_length. reflexivity. Qed.
Lemma removelast_map_seq {A} (f : nat -> A) n : removelast (map f (seq 0 n)) = map f (seq 0 (n - 1)).
Proof.
  destruct n as [|n]; [reflexivity|]. rewrite seq_S, map_app. cbn [map]. rewrite removelast_app by discriminate.
  cbn [removelast]. rewrite app_nil_r. replace (S n - 1)%nat with n by lia. reflexivity.
Qed.
Lemma filter_length_le' {A} (f : A -> bool) l : (length (filter f l) <= length l)%nat.
Proof. induction l as [|a l IH]; [apply le_n|]. cbn [filter length]. destruct (f a); cbn [length]; lia. Qed.
(** the number of values of an increasing function up to v *)
Lemma digitize_count (f : nat -> R) v m : (forall i j, (i < j)%nat -> f i < f j) ->
  let c := digitize (map f (seq 0 m)) (Some v) in
  (c <= m)%nat /\ (forall k, (k < c)%nat -> f k <= v) /\ (forall k, (c <= k < m)%nat -> v < f k).
Proof.
  intros Hf. cbv zeta. cbn [digitize]. induction m as [|m IH]; [cbn; repeat split; intros; lia|].
  rewrite seq_S, map_app, filter_app, app_length. cbn [map filter Nat.add].
  set (c := length (filter (fun b => if Rle_dec b v then true else false) (map f (seq 0 m)))) in *.
  destruct IH as (I1 & I2 & I3).
  destruct (Rle_dec (f m) v) as [h|h]; cbn [length].
  - assert (c = m).
    { destruct (Nat.eq_dec c m) as [e|e]; [exact e|]. specialize (I3 c ltac:(lia)). assert (f c < f m) by (apply Hf; lia). lra. }
    replace (c + 1)%nat with (S m) by lia. repeat split; [lia| |intros; lia].
    intros k Hk. destruct (Nat.eq_dec k m) as [->|]; [exact h|]. apply I2. lia.
  - rewrite Nat.add_0_r. repeat split; [lia|exact I2|].
    intros k Hk. destruct (Nat.eq_dec k m) as [->|]; [lra|]. apply I3. lia.
Qed.

Lemma pow2_pos b : (1 <= 2 ^ b)%nat.
Proof. pose proof (Nat.pow_nonzero 2 b). lia. Qed.

(** the levels of quantize_signal round up *)
Lemma old_levels b v : (1 <= b)%nat -> -1 <= v <= 1 ->
  let levels := linspace (-1) 1 (2 ^ b) in
  let step := 2 / (INR (2 ^ b) - 1) in
  exists k, (k < 2 ^ b)%nat /\ getn levels (digitize (removelast levels) (Some v)) = Ok (-1 + INR k * step) /\
    0 <= (-1 + INR k * step) - v <= step.
Proof.
  intros Hb Hv levels step.
  assert (Hn : (2 <= 2 ^ b)%nat).
  { destruct b as [|b]; [lia|]. cbn [Nat.pow]. pose proof (pow2_pos b). lia. }
  set (n := (2 ^ b)%nat) in *.
  assert (HnR : 2 <= INR n) by (change 2 with (INR 2); apply le_INR; exact Hn).
  assert (Hst : 0 < step) by (unfold step; apply Rdiv_lt_0_compat; lra).
  assert (Hnst : (INR n - 1) * step = 2) by (unfold step; field; lra).
  assert (El : removelast levels = map (fun i => -1 + INR i * step) (seq 0 (n - 1))).
  { unfold levels, linspace. rewrite removelast_map_seq. apply map_ext. intros i. unfold step. f_equal. f_equal. f_equal. ring. }
  destruct (digitize_count (fun i => -1 + INR i * step) v (n - 1)) as (C1 & C2 & C3).
  { intros i j Hij. apply lt_INR in Hij. nra. }
  rewrite El. set (c := digitize (map (fun i => -1 + INR i * step) (seq 0 (n - 1))) (Some v)) in *.
  exists c. split; [lia|]. split.
  { unfold getn, levels. rewrite linspace_nth by lia. apply f_equal. unfold step. f_equal. f_equal. f_equal. ring. }
  assert (Hc1 : (1 <= c)%nat).
  { destruct (Nat.eq_dec c 0) as [e|e]; [|lia]. specialize (C3 0%nat ltac:(lia)). change (INR 0) with 0 in C3. lra. }
  specialize (C2 (c - 1)%nat ltac:(lia)). rewrite minus_INR in C2 by lia. change (INR 1) with 1 in C2.
  destruct (Nat.eq_dec c (n - 1)) as [e|e].
  - rewrite e, minus_INR in * by lia. change (INR 1) with 1 in *. lra.
  - specialize (C3 c ltac:(lia)). lra.
Qed.

(** the levels of quantize_signal_New round to the nearest *)
Lemma new_levels b v : -1 <= v <= 1 ->
  let delta := 2 / INR (2 ^ b) in
  let lo := linspace (-1 + delta / 2) (1 - delta / 2) (2 ^ b) in
  exists k, (k < 2 ^ b)%nat /\ getn lo (digitize (removelast (map (fun l => l + delta / 2) lo)) (Some v)) = Ok (-1 + delta / 2 + INR k * delta) /\
    Rabs ((-1 + delta / 2 + INR k * delta) - v) <= delta / 2.
Proof.
  intros Hv delta lo. pose proof (pow2_pos b) as Hn. set (n := (2 ^ b)%nat) in *.
  assert (HnR : 1 <= INR n) by (change 1 with (INR 1); apply le_INR; exact Hn).
  assert (Hd : 0 < delta) by (unfold delta; apply Rdiv_lt_0_compat; lra).
  assert (Hnd : INR n * delta = 2) by (unfold delta; field; lra).
  assert (Hst : forall k, (k < n)%nat -> INR k * ((1 - delta / 2 - (-1 + delta / 2)) / (INR n - 1)) = INR k * delta).
  { intros k Hk. destruct (Nat.eq_dec n 1) as [e|e].
    - assert (k = 0)%nat by lia. subst k. change (INR 0) with 0. ring.
    - assert (2 <= INR n) by (change 2 with (INR 2); apply le_INR; lia).
      replace (1 - delta / 2 - (-1 + delta / 2)) with (2 - delta) by field. rewrite <- Hnd. f_equal. field. lra. }
  assert (El : removelast (map (fun l => l + delta / 2) lo) = map (fun i => -1 + (INR i + 1) * delta) (seq 0 (n - 1))).
  { unfold lo, linspace. rewrite map_map, removelast_map_seq. apply map_ext_in. intros i Hi. apply in_seq in Hi.
    rewrite Hst by lia. field. }
  destruct (digitize_count (fun i => -1 + (INR i + 1) * delta) v (n - 1)) as (C1 & C2 & C3).
  { intros i j Hij. apply lt_INR in Hij. nra. }
  rewrite El. set (c := digitize (map (fun i => -1 + (INR i + 1) * delta) (seq 0 (n - 1))) (Some v)) in *.
  exists c. split; [lia|]. split.
  { unfold getn, lo. rewrite linspace_nth by lia. apply f_equal. rewrite Hst by lia. reflexivity. }
  assert (L : -1 + INR c * delta <= v).
  { destruct (Nat.eq_dec c 0) as [e|e]; [rewrite e; change (INR 0) with 0; lra|].
    specialize (C2 (c - 1)%nat ltac:(lia)). rewrite minus_INR in C2 by lia. change (INR 1) with 1 in C2. lra. }
  assert (U : v <= -1 + (INR c + 1) * delta).
  { destruct (Nat.eq_dec c (n - 1)) as [e|e].
    - rewrite e, minus_INR in * by lia. change (INR 1) with 1 in *. lra.
    - specialize (C3 c ltac:(lia)). lra. }
  apply Rabs_le. lra.
Qed.

Lemma mapM_Forall2 {A B} (f : A -> result B) (P : A -> B -> Prop) l : (forall a, In a l -> exists b, f a = Ok b /\ P a b) ->
  exists bs, mapM f l = Ok bs /\ Forall2 P l bs.
Proof.
  induction l as [|a l IH]; intros H; [exists []; split; [reflexivity|constructor]|].
  destruct (H a (or_introl eq_refl)) as (b & Hb & Pb). destruct IH as (bs & Hbs & Pbs); [intros; apply H; right; assumption|].
  exists (b :: bs). cbn [mapM]. rewrite Hb. cbn [bind]. rewrite Hbs. split; [reflexivity|constructor; assumption].
Qed.

Definition rounds_up (step : R) (x y : C) : Prop := 0 <= fst y - fst x <= step /\ 0 <= snd y - snd x <= step.

Lemma quant_old b sig : (1 <= b)%nat -> Forall (Forall (within 1)) sig ->
  let step := 2 / (INR (2 ^ b) - 1) in
  exists out, quantize_signal sig b false false = Ok (map (map Some) out, map (map Some) sig) /\
    Forall2 (Forall2 (fun x y => (0 <= fst y - fst x <= step /\ 0 <= snd y - snd x <= step) /\ on_levels (-1) step (2 ^ b) y)) sig out.
Proof.
  intros Hb H step. unfold quantize_signal. cbn [bind]. unfold quant_rows.
  destruct (mapM_Forall2 (fun row => mapM (quant_sample (linspace (-1) 1 (2 ^ b)) (removelast (linspace (-1) 1 (2 ^ b)))) (map Some row))
    (Forall2 (fun x y => (0 <= fst y - fst x <= step /\ 0 <= snd y - snd x <= step) /\ on_levels (-1) step (2 ^ b) y)) sig) as (out & Eo & Ho).
  - intros row Hr. rewrite Forall_forall in H. specialize (H row Hr). rewrite Forall_forall in H.
    destruct (mapM_Forall2 (fun z => quant_sample (linspace (-1) 1 (2 ^ b)) (removelast (linspace (-1) 1 (2 ^ b))) (Some z))
      (fun x y => (0 <= fst y - fst x <= step /\ 0 <= snd y - snd x <= step) /\ on_levels (-1) step (2 ^ b) y) row) as (o & E1 & E2).
    + intros z Hz. destruct (H z Hz) as [Z1 Z2].
      assert (V1 : -1 <= fst z <= 1) by (unfold Rabs in Z1; destruct (Rcase_abs (fst z)); lra).
      assert (V2 : -1 <= snd z <= 1) by (unfold Rabs in Z2; destruct (Rcase_abs (snd z)); lra).
      destruct (old_levels b (fst z) Hb V1) as (k1 & K1 & G1 & B1).
      destruct (old_levels b (snd z) Hb V2) as (k2 & K2 & G2 & B2).
      eexists. unfold quant_sample. cbn [option_map]. rewrite G1, G2. cbn [bind]. split; [reflexivity|]. cbn [fst snd].
      split; [split; assumption|]. split; [exists k1|exists k2]; split; auto.
    + exists o. split; [|exact E2]. rewrite <- E1. clear. induction row as [|z row IH]; [reflexivity|]. cbn [map mapM]. rewrite IH. reflexivity.
  - exists out. split; [|exact Ho].
    replace (mapM (mapM (quant_sample (linspace (-1) 1 (2 ^ b)) (removelast (linspace (-1) 1 (2 ^ b))))) (map (map Some) sig))
      with (Ok out); [reflexivity|]. rewrite <- Eo. clear. induction sig as [|r sig IH]; [reflexivity|]. cbn [map mapM]. rewrite IH. reflexivity.
Qed.

Lemma Cabs_real x : Cabs (x, 0) = Rabs x.
Proof. unfold Cabs, Cnorm2. cbn [fst snd]. rewrite Rmult_0_l, Rplus_0_r. apply sqrt_Rsqr_abs. Qed.

(** the argument is divided by its largest modulus *)
Lemma quant_old_mutates b r1 : exists out, quantize_signal [[(2, 0)]] b true r1 = Ok (out, [[Some (1, 0)]]).
Proof.
  unfold quantize_signal. cbn [mapM]. unfold peak_row at 1. cbn [map rmaxl fold_left bind]. rewrite Cabs_real.
  rewrite Rabs_right by lra. unfold cdiv_row. cbn [map]. destruct (Req_EM_T 2 0) as [h|_]; [lra|].
  replace (Cscal (/ 2) (2, 0)) with ((1, 0) : C) by (apply C_eq; cbn; field).
  cbn [bind]. unfold quant_rows.
  assert (Q : exists y, quant_sample (linspace (-1) 1 (2 ^ b)) (removelast (linspace (-1) 1 (2 ^ b))) (Some (1, 0)) = Ok y).
  { assert (G : forall v, exists y, getn (linspace (-1) 1 (2 ^ b)) (digitize (removelast (linspace (-1) 1 (2 ^ b))) (Some v)) = Ok y).
    { intros v. unfold getn. destruct (nth_error_lt_Some (linspace (-1) 1 (2 ^ b)) (digitize (removelast (linspace (-1) 1 (2 ^ b))) (Some v))) as [y ->].
      - rewrite linspace_length. cbn [digitize]. unfold linspace. rewrite removelast_map_seq.
        eapply Nat.le_lt_trans; [apply filter_length_le'|]. rewrite map_length, seq_length. pose proof (pow2_pos b). lia.
      - eexists. reflexivity. }
    unfold quant_sample. cbn [option_map fst snd]. destruct (G 1) as [y1 ->]. destruct (G 0) as [y2 ->]. eexists. reflexivity. }
  destruct Q as [y Q]. cbn [mapM]. unfold C in *. rewrite Q. cbn [bind]. eexists. reflexivity.
Qed.

Lemma peak_concat (sig : list (list C)) M : sig <> [] -> (forall row, In row sig -> peak M row) -> peak M (concat sig).
Proof.
  intros Hne H. split.
  - intros z Hz. apply in_concat in Hz. destruct Hz as (row & Hr & Hz). apply (H row Hr). exact Hz.
  - destruct sig as [|row sig]; [contradiction|]. destruct (H row (or_introl eq_refl)) as [_ (z & Hz & E)].
    exists z. split; [cbn [concat]; apply in_or_app; left; exact Hz|exact E].
Qed.

Lemma rescale_row_ok row m s : 0 < m -> peak m row -> rescale_row row s = Ok (map (fun z => Some (Cscal (s / m) z)) row).
Proof.
  intros Hm Hp. unfold rescale_row. rewrite (row_peak_spec _ _ Hp). cbn [bind]. apply f_equal. unfold cdiv_row. rewrite map_map.
  apply map_ext. intros z. destruct (Req_EM_T m 0); [lra|]. cbn [option_map]. apply f_equal. apply C_eq; unfold Cscal; cbn [fst snd]; field; lra.
Qed.

Lemma quant_new b sig peaks M : 0 < M -> peak M (concat sig) -> Forall2 (fun row m => 0 < m /\ peak m row) sig peaks ->
  exists out, quantize_signal_New true sig b true true = Ok out /\ length out = length sig /\
    forall k row m, nth_error sig k = Some row -> nth_error peaks k = Some m -> exists row', nth_error out k = Some row' /\
      Forall2 (fun x y => near (M / INR (2 ^ b)) (Cscal (M / m) x) y /\
                          on_levels (M * (-1 + / INR (2 ^ b))) (2 * M / INR (2 ^ b)) (2 ^ b) y) row row'.
Proof.
  intros HM HP H. unfold quantize_signal_New, rescale_signal.
  assert (E1 : exists l, mapM row_peak sig = Ok l).
  { clear HP. induction H as [|row m sig peaks [Hm Hp] H IH]; [exists []; reflexivity|].
    cbn [mapM]. rewrite (row_peak_spec _ _ Hp). destruct IH as [l ->]. eexists. reflexivity. }
  destruct E1 as [l ->]. cbn [bind].
  assert (Ebc : broadcast sig [1] = Ok (map (fun x => (x, 1)) sig)) by (destruct sig as [|r1 [|r2 sig]]; reflexivity).
  rewrite Ebc. cbn [bind].
  assert (E2 : exists resc, mapM (fun p => rescale_row (fst p) (snd p)) (map (fun x => (x, 1)) sig) = Ok resc /\
     Forall2 (fun (p : list C * R) r => r = map (fun z => Some (Cscal (1 / snd p) z)) (fst p)) (combine sig peaks) resc).
  { clear HP Ebc. induction H as [|row m sig peaks [Hm Hp] H IH]; [exists []; split; [reflexivity|constructor]|].
    cbn [map mapM fst snd combine]. rewrite (rescale_row_ok row m 1 Hm Hp). destruct IH as (resc & -> & IH2).
    cbn [bind]. eexists. split; [reflexivity|]. constructor; [reflexivity|exact IH2]. }
  destruct E2 as (resc & E2 & E3). rewrite E2. cbn [bind].
  pose proof (pow2_pos b) as Hn.
  assert (HnR : 0 < INR (2 ^ b)) by (apply lt_0_INR; lia).
  set (delta := 2 / INR (2 ^ b)).
  set (lo := linspace (-1 + delta / 2) (1 - delta / 2) (2 ^ b)).
  set (dec := removelast (map (fun l0 => l0 + delta / 2) lo)).
  assert (Lresc : length resc = length sig).
  { rewrite <- (Forall2_length' _ _ _ E3), combine_length, (Forall2_length' _ _ _ H). lia. }
  assert (Q : exists out, quant_rows lo dec resc = Ok out /\ length out = length sig /\
    forall k row m, nth_error sig k = Some row -> nth_error peaks k = Some m -> exists row', nth_error out k = Some row' /\
      Forall2 (fun x y => near (delta / 2) (Cscal (1 / m) x) y /\ on_levels (-1 + delta / 2) delta (2 ^ b) y) row row').
  { clear E2 Ebc HP. unfold quant_rows. revert resc E3 Lresc.
    induction H as [|row m sig peaks [Hm Hp] H IH]; intros resc E3 Lresc.
    - destruct resc; [|discriminate]. exists []. split; [reflexivity|]. split; [reflexivity|]. intros [|k] ? ? A; discriminate.
    - cbn [combine] in E3. inversion E3 as [|p r q resc' Er E3']; subst. cbn [fst snd] in *.
      destruct (IH resc' E3') as (out & O1 & O2 & O3); [cbn [length] in Lresc; lia|].
      assert (R1 : exists row', mapM (quant_sample lo dec) (map (fun z => Some (Cscal (1 / m) z)) row) = Ok row' /\
        Forall2 (fun x y => near (delta / 2) (Cscal (1 / m) x) y /\ on_levels (-1 + delta / 2) delta (2 ^ b) y) row row').
      { destruct (mapM_Forall2 (fun z => quant_sample lo dec (Some (Cscal (1 / m) z)))
          (fun x y => near (delta / 2) (Cscal (1 / m) x) y /\ on_levels (-1 + delta / 2) delta (2 ^ b) y) row) as (o & F1 & F2).
        - intros z Hz. destruct Hp as [Hp _]. destruct (Hp z Hz) as [Z1 Z2].
          assert (V : forall u, Rabs u <= m -> -1 <= 1 / m * u <= 1).
          { intros u Hu. assert (- m <= u <= m) by (unfold Rabs in Hu; destruct (Rcase_abs u); lra).
            replace (1 / m * u) with (u / m) by (field; lra). split.
            - apply (Rmult_le_reg_r m); [lra|]. unfold Rdiv. rewrite Rmult_assoc, Rinv_l by lra. lra.
            - apply (Rmult_le_reg_r m); [lra|]. unfold Rdiv. rewrite Rmult_assoc, Rinv_l by lra. lra. }
          destruct (new_levels b (1 / m * fst z) (V _ Z1)) as (k1 & K1 & G1 & B1).
          destruct (new_levels b (1 / m * snd z) (V _ Z2)) as (k2 & K2 & G2 & B2).
          eexists. unfold quant_sample. cbn [option_map fst snd Cscal]. fold delta in G1, G2, B1, B2. fold lo in G1, G2. fold dec in G1, G2.
          unfold Cscal. cbn [fst snd]. rewrite G1, G2. cbn [bind]. split; [reflexivity|]. split; [split; assumption|].
          split; [exists k1|exists k2]; split; auto.
        - exists o. split; [|exact F2]. rewrite <- F1. clear. induction row as [|z row IH]; [reflexivity|]. cbn [map mapM]. rewrite IH. reflexivity. }
      destruct R1 as (row' & R1 & R2). exists (row' :: out). cbn [mapM]. rewrite R1, O1. cbn [bind].
      split; [reflexivity|]. split; [cbn [length]; lia|]. intros [|k] row0 m0 A B; cbn in A, B.
      + injection A as <-. injection B as <-. exists row'. split; [reflexivity|exact R2].
      + apply O3; assumption. }
  destruct Q as (out & Q1 & Q2 & Q3). rewrite Q1. cbn [bind]. rewrite (row_peak_spec _ _ HP). cbn [bind].
  exists (map (map (Cscal M)) out). split; [reflexivity|]. split; [rewrite map_length; exact Q2|].
  intros k row m A B. destruct (Q3 k row m A B) as (row' & C1 & C2). exists (map (Cscal M) row').
  split; [rewrite nth_error_map, C1; reflexivity|].
  clear - C2 HM HnR. induction C2 as [|x y row row' [[N1 N2] [L1 L2]] C2 IH]; [constructor|]. cbn [map]. constructor; [|exact IH].
  assert (Hd : delta / 2 = / INR (2 ^ b)) by (unfold delta; field; lra).
  assert (S : forall u v, Rabs (u - 1 / m * v) <= delta / 2 -> Rabs (M * u - M / m * v) <= M / INR (2 ^ b)).
  { intros u v Huv. replace (M * u - M / m * v) with (M * (u - 1 / m * v)) by (unfold Rdiv; ring).
    rewrite Rabs_mult, (Rabs_right M) by lra. unfold Rdiv at 2. rewrite <- Hd. apply Rmult_le_compat_l; lra. }
  split.
  - unfold near, Cscal in *. cbn [fst snd] in *. split; apply S; assumption.
  - unfold on_levels, Cscal in *. cbn [fst snd].
    destruct L1 as (k1 & K1 & ->). destruct L2 as (k2 & K2 & ->).
    split; [exists k1|exists k2]; (split; [assumption|]); rewrite Hd; unfold delta; field; lra.
Qed.

Lemma quant_new_ndarray b sig r1 r2 : exists e, quantize_signal_New false sig b r1 r2 = Err e.
Proof.
  unfold quantize_signal_New. destruct (if r1 then _ else _) as [s|e]; [|eexists; reflexivity]. cbn [bind].
  destruct (quant_rows _ _ s) as [o|e]; [|eexists; reflexivity]. cbn [bind].
  destruct (if r2 then _ else _) as [o2|e]; [|eexists; reflexivity]. cbn [bind]. eexists. reflexivity.
Qed.

(** ** clipper *)
Ltac cases_if := repeat match goal with |- context[if ?d then _ else _] =>
  lazymatch d with context[if _ then _ else _] => fail | _ => destruct d end end.
Lemma clip1_limit a x : 0 <= a -> clip1 a x = limit a x.
Proof.
  intros Ha. unfold clip1, limit, rsign, Rmin, Rmax, Rabs.
  cases_if; intros; lra.
Qed.
Lemma limit_within a x : 0 <= a -> Rabs (limit a x) <= a.
Proof. intros Ha. unfold limit, Rmin, Rmax, Rabs. cases_if; intros; lra. Qed.
Lemma limit_id a x : Rabs x <= a -> limit a x = x.
Proof. unfold limit, Rmin, Rmax, Rabs. cases_if; intros; lra. Qed.
Lemma clipper_limit sig a : 0 <= a -> clipper sig a = map (map (fun z => (limit a (fst z), limit a (snd z)))) sig.
Proof. intros H. unfold clipper. apply map_ext. intros row. apply map_ext. intros z. rewrite !clip1_limit by exact H. reflexivity. Qed.
Lemma clipper_ok sig a : 0 <= a ->
  Forall2 (Forall2 (fun x y => y = (limit a (fst x), limit a (snd x)) /\ within a y /\ (within a x -> y = x))) sig (clipper sig a) /\
  clipper (clipper sig a) a = clipper sig a.
Proof.
  intros H. rewrite (clipper_limit sig a H). split.
  - induction sig as [|row sig IH]; [constructor|]. cbn [map]. constructor; [|exact IH].
    induction row as [|z row IHr]; [constructor|]. cbn [map]. constructor; [|exact IHr].
    split; [reflexivity|]. split; [split; apply limit_within; exact H|].
    intros [H1 H2]. rewrite !limit_id by assumption. destruct z. reflexivity.
  - rewrite (clipper_limit _ a H). rewrite map_map. apply map_ext. intros row. rewrite map_map. apply map_ext. intros z.
    cbn [fst snd]. rewrite (limit_id a (limit a (fst z))), (limit_id a (limit a (snd z))) by (apply limit_within; exact H). reflexivity.
Qed.

(** ** modulator *)
Lemma mzm_ideal u : mzm (u + 1) 1 0 = RtoC (sin (PI / 2 * u)).
Proof.
  unfold mzm, Cexpi, RtoC, Cscal, Copp, Cadd. cbn [fst snd].
  replace (PI * (u + 1) * (1 + 0) / 2) with (PI / 2 + PI / 2 * u) by field.
  replace (- (PI * (u + 1) * (1 - 0) / 2)) with (- (PI / 2 + PI / 2 * u)) by field.
  rewrite cos_neg, sin_neg, cos_plus, sin_plus, cos_PI2, sin_PI2. f_equal; field.
Qed.
Lemma modulator_ideal z : modulator_sample (1, 0) (1, 0) (0, 0) (1 / 2) 1 z = (sin (PI / 2 * fst z) / 2, sin (PI / 2 * snd z) / 2).
Proof.
  unfold modulator_sample, both. cbn [fst snd]. destruct (Req_EM_T 0 0) as [_|h]; [|contradiction]. cbn [fst snd].
  rewrite !mzm_ideal.
  replace (PI * (1 / 2) / 2) with (PI / 4) by field.
  replace (Cexpi (PI / 4) * (RtoC (sin (PI / 2 * fst z)) * Cexpi (- (PI / 4)) + Cscal 1 (RtoC (sin (PI / 2 * snd z)) * Cexpi (PI / 4))))%C
    with ((Cexpi (PI / 4) * Cexpi (- (PI / 4))) * RtoC (sin (PI / 2 * fst z)) + (Cexpi (PI / 4) * Cexpi (PI / 4)) * RtoC (sin (PI / 2 * snd z)))%C by cring.
  rewrite <- !Cexpi_add.
  replace (PI / 4 + - (PI / 4)) with 0 by ring. replace (PI / 4 + PI / 4) with (PI / 2) by field.
  unfold Cexpi. rewrite cos_0, sin_0, cos_PI2, sin_PI2. unfold Cscal, Cadd, Cmul, RtoC. cbn [fst snd]. f_equal; field.
Qed.

Lemma comp_sin_ok v z : within 1 z -> comp_mod_sin_sample (v, v) z = (Some (2 * v * asin (fst z)), Some (2 * v * asin (snd z))).
Proof.
  intros [H1 H2]. unfold comp_mod_sin_sample, arcsin. cbn [fst snd].
  assert (A1 : -1 <= fst z <= 1) by (unfold Rabs in H1; destruct (Rcase_abs (fst z)); lra).
  assert (A2 : -1 <= snd z <= 1) by (unfold Rabs in H2; destruct (Rcase_abs (snd z)); lra).
  destruct (Rle_dec (-1) (fst z)); [|lra]. destruct (Rle_dec (fst z) 1); [|lra].
  destruct (Rle_dec (-1) (snd z)); [|lra]. destruct (Rle_dec (snd z) 1); [|lra]. reflexivity.
Qed.
Lemma cascade_inv_pi z : within 1 z -> exists a b, comp_mod_sin_sample (/ PI, / PI) z = (Some a, Some b) /\
  modulator_sample (1, 0) (1, 0) (0, 0) (1 / 2) 1 (a, b) = Cscal (/ 2) z.
Proof.
  intros H. rewrite comp_sin_ok by exact H. eexists. eexists. split; [reflexivity|]. rewrite modulator_ideal. cbn [fst snd].
  destruct H as [H1 H2].
  assert (A1 : -1 <= fst z <= 1) by (unfold Rabs in H1; destruct (Rcase_abs (fst z)); lra).
  assert (A2 : -1 <= snd z <= 1) by (unfold Rabs in H2; destruct (Rcase_abs (snd z)); lra).
  pose proof PI_RGT_0.
  replace (PI / 2 * (2 * / PI * asin (fst z))) with (asin (fst z)) by (field; lra).
  replace (PI / 2 * (2 * / PI * asin (snd z))) with (asin (snd z)) by (field; lra).
  rewrite !sin_asin by assumption. unfold Cscal. f_equal; field.
Qed.
Lemma PI_upper : PI < 35 / 10.
Proof.
  pose proof (PI_ineq 1) as [_ H]. unfold tg_alt, PI_tg in H. cbn in H. lra.
Qed.
Lemma asin_1 : asin 1 = PI / 2.
Proof. rewrite <- sin_PI2. apply asin_sin. pose proof PI_RGT_0. lra. Qed.
Lemma asin_half : asin (1 / 2) = PI / 6.
Proof. rewrite <- sin_PI6. apply asin_sin. pose proof PI_RGT_0. lra. Qed.

(** with half-wave voltages between 2/pi and 4/pi the cascade changes its sign *)
Lemma cascade_not_linear v : 2 / PI < v < 4 / PI -> ~ exists c, forall x, -1 <= x <= 1 -> exists a b,
  comp_mod_sin_sample (v, v) (x, 0) = (Some a, Some b) /\ fst (modulator_sample (1, 0) (1, 0) (0, 0) (1 / 2) 1 (a, b)) = c * x.
Proof.
  intros Hv [c Hc]. pose proof PI_RGT_0 as Hpi.
  assert (Vs : PI < PI * v * (PI / 2) < 2 * PI).
  { destruct Hv as [V1 V2].
    assert (V1' : 2 < v * PI). { apply (Rmult_lt_reg_r (/ PI)); [apply Rinv_0_lt_compat; lra|]. rewrite Rmult_assoc, Rinv_r by lra. unfold Rdiv in V1. lra. }
    assert (V2' : v * PI < 4). { apply (Rmult_lt_reg_r (/ PI)); [apply Rinv_0_lt_compat; lra|]. rewrite Rmult_assoc, Rinv_r by lra. unfold Rdiv in V2. lra. }
    replace (PI * v * (PI / 2)) with (PI * (v * PI / 2)) by field. nra. }
  assert (K : forall x, -1 <= x <= 1 -> sin (PI * v * asin x) / 2 = c * x).
  { intros x Hx. destruct (Hc x Hx) as (a & b & E1 & E2). rewrite comp_sin_ok in E1.
    2:{ split; cbn [fst snd]; [apply Rabs_le; lra|rewrite Rabs_R0; lra]. }
    injection E1 as <- <-. rewrite modulator_ideal in E2. cbn [fst snd] in E2. rewrite <- E2. f_equal. f_equal. field. }
  pose proof (K 1 ltac:(lra)) as K1. pose proof (K (1 / 2) ltac:(lra)) as K2. rewrite asin_1 in K1. rewrite asin_half in K2.
  assert (S1 : sin (PI * v * (PI / 2)) < 0) by (apply sin_lt_0; lra).
  assert (S2 : 0 < sin (PI * v * (PI / 6))).
  { apply sin_gt_0; replace (PI * v * (PI / 6)) with (PI * v * (PI / 2) / 3) by field; lra. }
  lra.
Qed.

(** ** noise *)
Lemma snr_strength_sqr sig snr fb fs : 0 < fb -> 0 < fs ->
  0 <= snr_strength sig snr fb fs /\
  snr_strength sig snr fb fs * snr_strength sig snr fb fs * Rpower 10 (snr / 10) = sample_power (concat sig) * (fs / fb).
Proof.
  intros H1 H2. unfold snr_strength.
  pose proof (mean_power_nonneg (concat sig)) as HP.
  assert (Ho : 0 < fs / fb) by (apply Rdiv_lt_0_compat; assumption).
  assert (HR : 0 < Rpower 10 (- snr / 20)) by (unfold Rpower; apply exp_pos).
  split.
  - apply Rmult_le_pos; [apply sqrt_pos|]. apply Rmult_le_pos; [lra|apply sqrt_pos].
  - replace (sqrt (mean_power (concat sig)) * (Rpower 10 (- snr / 20) * sqrt (fs / fb)) *
      (sqrt (mean_power (concat sig)) * (Rpower 10 (- snr / 20) * sqrt (fs / fb))) * Rpower 10 (snr / 10))
      with ((sqrt (mean_power (concat sig)) * sqrt (mean_power (concat sig))) * (sqrt (fs / fb) * sqrt (fs / fb)) *
            (Rpower 10 (- snr / 20) * Rpower 10 (- snr / 20) * Rpower 10 (snr / 10))) by ring.
    rewrite !sqrt_sqrt by lra. rewrite <- !Rpower_plus.
    replace (- snr / 20 + - snr / 20 + snr / 10) with 0 by field. rewrite Rpower_O by lra.
    unfold sample_power, mean_power, Rmean. rewrite map_length. ring.
Qed.
Lemma awgn_nth sig s nr ni m row a b : nth_error sig m = Some row -> nth_error nr m = Some a -> nth_error ni m = Some b ->
  length a = length row -> length b = length row ->
  exists row', nth_error (add_awgn sig s nr ni) m = Some row' /\ length row' = length row /\
    forall k z x y, nth_error row k = Some z -> nth_error a k = Some x -> nth_error b k = Some y ->
      nth_error row' k = Some (z + Cscal (s / sqrt 2) (x, y))%C.
Proof.
  intros H1 H2 H3 L1 L2. unfold add_awgn. rewrite nth_error_map, (combine_nth' _ _ _ _ _ H1 (combine_nth' _ _ _ _ _ H2 H3)).
  cbn [option_map]. eexists. split; [reflexivity|]. unfold awgn_row. cbn [fst snd]. split.
  - rewrite map_length, !combine_length. lia.
  - intros k z x y Hz Hx Hy. rewrite nth_error_map. pose proof (combine_nth' _ _ _ _ _ Hz (combine_nth' _ _ _ _ _ Hx Hy)) as E. unfold C in *. rewrite E. reflexivity.
Qed.
Lemma awgn_shape sig s nr ni p n : shape sig p n -> shape nr p n -> shape ni p n -> shape (add_awgn sig s nr ni) p n.
Proof.
  intros [H1 R1] [H2 R2] [H3 R3]. unfold add_awgn. split; [rewrite map_length, !combine_length; lia|].
  unfold rect in *. apply Forall_forall. intros r Hr. apply in_map_iff in Hr. destruct Hr as ([x [a b]] & <- & Hin).
  apply in_combine_l in Hin as I1. apply in_combine_r in Hin as I2. apply in_combine_l in I2 as I3. apply in_combine_r in I2 as I4.
  rewrite Forall_forall in R1, R2, R3. unfold awgn_row. cbn [fst snd]. rewrite map_length, !combine_length, (R1 x I1), (R2 a I3), (R3 b I4). lia.
Qed.

(** ** simulate_transmission *)
Lemma rcumsum_length acc l : length (rcumsum acc l) = length l.
Proof. revert acc. induction l as [|x l IH]; intros acc; [reflexivity|]. cbn [rcumsum length]. rewrite IH. reflexivity. Qed.
Lemma phase_noise_shape g df fs p n : shape g p n -> shape (phase_noise g df fs) p n.
Proof.
  intros [H1 H2]. unfold phase_noise. split; [rewrite map_length; exact H1|]. unfold rect in *. rewrite Forall_forall in *.
  intros r Hr. apply in_map_iff in Hr. destruct Hr as (x & <- & Hx). rewrite rcumsum_length, map_length. apply H2. exact Hx.
Qed.
Lemma shape_lengths {A B} (X : list (list A)) (Y : list (list B)) p n : shape X p n -> shape Y p n -> Forall2 (fun a b => length a = length b) X Y.
Proof.
  intros [H1 H2] [H3 H4]. apply Forall2_from_nth; [congruence|]. intros i a b Ha Hb. unfold rect in *. rewrite Forall_forall in *.
  rewrite (H2 a (nth_error_In _ _ Ha)), (H4 b (nth_error_In _ _ Hb)). reflexivity.
Qed.
Lemma rotated_shape ph X Y p n : shape X p n -> rotated_by ph X Y -> shape Y p n.
Proof.
  intros [H1 H2] [H3 H4]. split; [congruence|]. unfold rect in *. rewrite Forall_forall in *. intros r Hr.
  apply In_nth_error in Hr as [k Hk].
  destruct (nth_error_lt_Some X k) as [x Hx]; [apply nth_error_Some_lt in Hk; lia|].
  destruct (H4 k x Hx) as (r' & E & L & _). rewrite E in Hk. injection Hk as <-. rewrite L. apply H2. eapply nth_error_In. exact Hx.
Qed.
Lemma phase_noise_ok sig g df fs p n : shape sig p n -> shape g p n -> exists out, apply_phase_noise sig g df fs = Ok out /\ shape out p n.
Proof.
  intros H1 H2. destruct (rotate_rows_ok sig (phase_noise g df fs)) as [out E].
  { eapply shape_lengths; [exact H1|apply phase_noise_shape; exact H2]. }
  exists out. split; [exact E|]. apply rotate_rows_spec in E as (_ & _ & R). eapply rotated_shape; eassumption.
Qed.
Lemma carrier_shape sig fo fs p n : shape sig p n -> shape (add_carrier_offset sig fo fs) p n.
Proof.
  intros [H1 H2]. unfold add_carrier_offset. split; [rewrite map_length; exact H1|]. unfold rect in *. rewrite Forall_forall in *.
  intros r Hr. apply in_map_iff in Hr. destruct Hr as (x & <- & Hx). rewrite map_length, combine_length, seq_length, Nat.min_id. apply H2. exact Hx.
Qed.
Lemma roll_shape {A} (sig : list (list A)) d p n : shape sig p n -> shape (map (roll d) sig) p n.
Proof.
  intros [H1 H2]. split; [rewrite map_length; exact H1|]. unfold rect in *. rewrite Forall_forall in *.
  intros r Hr. apply in_map_iff in Hr. destruct Hr as (x & <- & Hx). rewrite roll_length. apply H2. exact Hx.
Qed.
Lemma modal_shape sig d p n out : shape sig p n -> add_modal_delay sig d = Ok out -> shape out p n.
Proof.
  unfold add_modal_delay. destruct (Nat.eqb_spec (length d) (length sig)) as [e|e]; [|discriminate]. intros [H1 H2] E. injection E as <-.
  split; [rewrite map_length, combine_length; lia|]. unfold rect in *. rewrite Forall_forall in *.
  intros r Hr. apply in_map_iff in Hr. destruct Hr as ([x y] & <- & Hx). cbn [fst snd]. rewrite roll_length. apply H2. eapply in_combine_l. exact Hx.
Qed.

Lemma sim_ok s dr snr fo lw dgd theta md rf p n :
  shape (x_rows s) p n -> shape (d_phase dr) p n -> shape (d_nr dr) p n -> shape (d_ni dr) p n ->
  (rf = true -> x_frames s <> None) -> (forall d, md = Some d -> length d = p) -> (dgd <> None -> p = 2%nat) ->
  exists out, simulate_transmission s dr snr fo lw dgd theta md None rf = Ok out /\ shape out p n.
Proof.
  intros H1 H2 H3 H4 Hrf Hmd Hdgd. unfold simulate_transmission.
  assert (S1 : exists r, (if rf then match x_frames s with None => Err AttributeError | Some (_, np) => Ok (map (roll (Z.of_nat np)) (x_rows s)) end
             else Ok (x_rows s)) = Ok r /\ shape r p n).
  { destruct rf; [|exists (x_rows s); split; [reflexivity|exact H1]].
    destruct (x_frames s) as [[nf np]|]; [|exfalso; apply Hrf; reflexivity].
    eexists. split; [reflexivity|]. apply roll_shape. exact H1. }
  destruct S1 as (r1 & -> & R1). cbn [bind].
  assert (S2 : exists r, opt_step lw (fun df r => apply_phase_noise r (d_phase dr) df (x_fs s)) r1 = Ok r /\ shape r p n).
  { destruct lw as [df|]; cbn [opt_step]; [|exists r1; split; [reflexivity|exact R1]]. apply phase_noise_ok; assumption. }
  destruct S2 as (r2 & -> & R2). cbn [bind].
  assert (S3 : exists r, opt_step fo (fun fo r => Ok (add_carrier_offset r fo (x_fs s))) r2 = Ok r /\ shape r p n).
  { destruct fo as [f|]; cbn [opt_step]; [|exists r2; split; [reflexivity|exact R2]]. eexists. split; [reflexivity|]. apply carrier_shape. exact R2. }
  destruct S3 as (r3 & -> & R3). cbn [bind].
  assert (S4 : exists r, opt_step snr (fun x r => Ok (change_snr r x (x_fb s) (x_fs s) (d_nr dr) (d_ni dr))) r3 = Ok r /\ shape r p n).
  { destruct snr as [x|]; cbn [opt_step]; [|exists r3; split; [reflexivity|exact R3]]. eexists. split; [reflexivity|]. apply awgn_shape; assumption. }
  destruct S4 as (r4 & -> & R4). cbn [bind].
  assert (S5 : exists r, opt_step md (fun d r => add_modal_delay r d) r4 = Ok r /\ shape r p n).
  { destruct md as [d|]; cbn [opt_step]; [|exists r4; split; [reflexivity|exact R4]].
    assert (Hd : length d = length r4) by (rewrite (Hmd d eq_refl); destruct R4; congruence).
    destruct (modal_delay_ok r4 d Hd) as (o & E & _). exists o. split; [exact E|]. eapply modal_shape; eassumption. }
  destruct S5 as (r5 & -> & R5). cbn [bind opt_step].
  destruct dgd as [t|]; cbn [opt_step]; [|exists r5; split; [reflexivity|exact R5]].
  assert (p = 2%nat) as -> by (apply Hdgd; discriminate).
  destruct (PMD_lossless r5 theta t (x_fs s) n R5) as (o & E & So & _). exists o. split; assumption.
Qed.

Lemma sim_dispersion s dr snr fo lw dgd theta md D rf : exists e, simulate_transmission s dr snr fo lw dgd theta md (Some D) rf = Err e.
Proof.
  unfold simulate_transmission.
  repeat (match goal with |- exists e, bind ?x _ = Err e => destruct x as [?r|?e] eqn:?E; cbn [bind]; [|eexists; reflexivity] end).
  discriminate.
Qed.
Lemma sim_dispersion_plain s dr D theta : simulate_transmission s dr None None None None theta None (Some D) false = Err NameError.
Proof. reflexivity. Qed.
Lemma sim_order s dr x f w t theta d out : simulate_transmission s dr (Some x) (Some f) (Some w) (Some t) theta (Some d) None false = Ok out <->
  exists r1, apply_phase_noise (x_rows s) (d_phase dr) w (x_fs s) = Ok r1 /\ exists r2,
    add_modal_delay (change_snr (add_carrier_offset r1 f (x_fs s)) x (x_fb s) (x_fs s) (d_nr dr) (d_ni dr)) d = Ok r2 /\
    apply_PMD_to_field r2 theta t (x_fs s) = Ok out.
Proof.
  unfold simulate_transmission. cbn [bind opt_step]. split.
  - destruct (apply_phase_noise _ _ _ _) as [r1|e] eqn:E1; cbn [bind]; [|discriminate].
    destruct (add_modal_delay _ _) as [r2|e] eqn:E2; cbn [bind]; [|discriminate]. intros H. exists r1. split; [reflexivity|]. exists r2. auto.
  - intros (r1 & -> & r2 & E2 & E3). cbn [bind]. rewrite E2. cbn [bind]. exact E3.
Qed.

(** ** rescaling *)
Lemma peak_scal s m row : 0 <= s -> 0 < m -> peak m row -> peak s (map (Cscal (s / m)) row).
Proof.
  intros Hs Hm [H1 (z & Hz & E)].
  assert (Hq : 0 <= s / m) by (apply Rmult_le_pos; [exact Hs|apply Rlt_le, Rinv_0_lt_compat; exact Hm]).
  assert (K : forall u, Rabs u <= m -> Rabs (s / m * u) <= s).
  { intros u Hu. rewrite Rabs_mult, (Rabs_right (s / m)) by lra.
    apply Rle_trans with (s / m * m); [apply Rmult_le_compat_l; assumption|]. right. field. lra. }
  assert (K2 : forall u, Rabs u = m -> Rabs (s / m * u) = s).
  { intros u Hu. rewrite Rabs_mult, (Rabs_right (s / m)), Hu by lra. field. lra. }
  split.
  - intros w Hw. apply in_map_iff in Hw. destruct Hw as (x & <- & Hx). destruct (H1 x Hx) as [A B]. split; cbn [Cscal fst snd]; apply K; assumption.
  - exists (Cscal (s / m) z). split; [apply in_map; exact Hz|]. cbn [Cscal fst snd].
    destruct E as [E|E]; [left|right]; apply K2; exact E.
Qed.
Lemma rescale_ok rows peaks s : 0 <= s -> Forall2 (fun row m => 0 < m /\ peak m row) rows peaks ->
  exists out, rescale_signal (D2 rows) [s] = Ok (map (map Some) out) /\
    Forall2 (fun row y => peak s y /\ exists a, 0 <= a /\ y = map (Cscal a) row) rows out.
Proof.
  intros Hs H. unfold rescale_signal.
  assert (E1 : exists l, mapM row_peak rows = Ok l).
  { induction H as [|row m sig peaks [Hm Hp] H IH]; [exists []; reflexivity|].
    cbn [mapM]. rewrite (row_peak_spec _ _ Hp). destruct IH as [l ->]. eexists. reflexivity. }
  destruct E1 as [l ->]. cbn [bind].
  assert (Ebc : broadcast rows [s] = Ok (map (fun x => (x, s)) rows)) by (destruct rows as [|r1 [|r2 rows]]; reflexivity).
  rewrite Ebc. cbn [bind]. clear Ebc.
  induction H as [|row m rows peaks [Hm Hp] H IH]; [exists []; split; [reflexivity|constructor]|].
  cbn [map mapM fst snd]. rewrite (rescale_row_ok row m s Hm Hp). cbn [bind]. destruct IH as (out & -> & IH2).
  exists (map (Cscal (s / m)) row :: out). cbn [bind map]. rewrite map_map. split; [reflexivity|].
  constructor; [|exact IH2]. split; [apply peak_scal; assumption|]. exists (s / m). split; [|reflexivity].
  apply Rmult_le_pos; [exact Hs|apply Rlt_le, Rinv_0_lt_compat; exact Hm].
Qed.
Lemma amplifier_ok sig v m : 0 <= v -> 0 < m -> peak m (concat sig) ->
  exists out, ideal_amplifier_response sig v = Ok (map (map Some) out) /\ peak v (concat out) /\
    exists a, 0 <= a /\ out = map (map (Cscal a)) sig.
Proof.
  intros Hv Hm Hp. unfold ideal_amplifier_response. rewrite (row_peak_spec _ _ Hp). cbn [bind].
  exists (map (map (Cscal (v / m))) sig). split; [|split].
  - apply f_equal. rewrite map_map. apply map_ext. intros row. unfold cdiv_row. rewrite !map_map. apply map_ext. intros z.
    destruct (Req_EM_T m 0); [lra|]. cbn [option_map]. apply f_equal. apply C_eq; unfold Cscal; cbn [fst snd]; field; lra.
  - rewrite <- concat_map. apply peak_scal; assumption.
  - exists (v / m). split; [|reflexivity]. apply Rmult_le_pos; [exact Hv|apply Rlt_le, Rinv_0_lt_compat; exact Hm].
Qed.
Lemma spans_ex l : l <> [] -> exists lo hi, rmaxl l = Ok hi /\ rminl l = Ok lo /\ spans lo hi l.
Proof.
  intros H. destruct (rmaxl l) as [hi|e] eqn:E1; [|destruct l; [contradiction|discriminate]].
  destruct (rminl l) as [lo|e] eqn:E2; [|destruct l; [contradiction|discriminate]].
  apply rmaxl_spec in E1 as [A1 A2]. apply rminl_spec in E2 as [B1 B2]. exists lo, hi. split; [reflexivity|]. split; [reflexivity|].
  split; [exact B1|]. split; [exact A1|]. intros x Hx. split; [apply B2|apply A2]; exact Hx.
Qed.
Lemma spans_shift lo hi l d : spans lo hi l -> spans (lo + d) (hi + d) (map (fun x => x + d) l).
Proof.
  intros (A & B & C). split; [apply (in_map (fun x => x + d)); exact A|]. split; [apply (in_map (fun x => x + d)); exact B|].
  intros x Hx. apply in_map_iff in Hx. destruct Hx as (y & <- & Hy). specialize (C y Hy). lra.
Qed.
Lemma mid_point_ok E mid : E <> [] -> exists out c, set_mid_point E mid = Ok out /\ out = map (fun z => (z + c)%C) E /\
  exists a b a' b', spans a b (map fst out) /\ (a + b) / 2 = fst mid /\ spans a' b' (map snd out) /\ (a' + b') / 2 = snd mid.
Proof.
  intros H. unfold set_mid_point.
  destruct (spans_ex (map fst E)) as (l1 & h1 & -> & -> & S1); [destruct E; [contradiction|discriminate]|]. cbn [bind].
  destruct (spans_ex (map snd E)) as (l2 & h2 & -> & -> & S2); [destruct E; [contradiction|discriminate]|]. cbn [bind].
  set (c := (mid - ((h1 + l1) / 2, (h2 + l2) / 2))%C).
  exists (map (fun z => (z + c)%C) E), c. split; [|split; [reflexivity|]].
  - apply f_equal. apply map_ext. intros z. unfold c. cring.
  - exists (l1 + fst c), (h1 + fst c), (l2 + snd c), (h2 + snd c).
    split; [|split; [|split]].
    + replace (map fst (map (fun z => (z + c)%C) E)) with (map (fun x => x + fst c) (map fst E)) by (rewrite !map_map; reflexivity). apply spans_shift. exact S1.
    + unfold c. destruct mid. cbn. field.
    + replace (map snd (map (fun z => (z + c)%C) E)) with (map (fun x => x + snd c) (map snd E)) by (rewrite !map_map; reflexivity). apply spans_shift. exact S2.
    + unfold c. destruct mid. cbn. field.
Qed.
Lemma nc_pil_all idx rows : (forall row, In row rows -> exists pil, mask_get idx row = Ok pil /\ ~ constant pil) ->
  exists out, normalise_and_center_pil (D2 rows) idx = Ok (map (map Some) out) /\
    Forall2 (fun x y => (exists m a, shifted_scaled m a x y) /\
                        exists pil, mask_get idx y = Ok pil /\ sample_mean pil = C0 /\ sample_power pil = 1) rows out.
Proof.
  induction rows as [|x rows IH]; intros H; [exists []; split; [reflexivity|constructor]|].
  destruct IH as (out & E & F); [intros; apply H; right; assumption|].
  destruct (H x (or_introl eq_refl)) as (pil & Hp & Hc). destruct (nc_pil_row_ok idx x pil Hp Hc) as (y & a & E1 & S & P).
  exists (y :: out). cbn [normalise_and_center_pil mapM] in *. rewrite E1. cbn [bind]. rewrite E. split; [reflexivity|].
  constructor; [|exact F]. split; [eauto|exact P].
Qed.
