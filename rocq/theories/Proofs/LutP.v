From Coq Require Import List ZArith Bool Lia Arith Reals Lra ZifyBool ZifyNat.
From Verif Require Import Common.Py Common.ListX Common.Cplx Common.SumX Model.Decision Model.Windows Model.Lut Spec.Win Spec.LutSpec
  Proofs.DecisionP Proofs.PilotP Proofs.WindowsP.
Import ListNotations.
Local Open Scope R_scope.

(** ** numbering *)
Lemma ravel_app M a d : ravel M (a ++ [d]) = (ravel M a * M + d)%nat.
Proof. unfold ravel. now rewrite fold_left_app. Qed.
Lemma ravel_lt M ds : Forall (fun d => (d < M)%nat) ds -> (ravel M ds < M ^ length ds)%nat.
Proof.
  induction ds as [|d ds IH] using rev_ind; intros H; [cbn; lia|].
  apply Forall_app in H as [H1 H2]. inversion H2; subst. rewrite ravel_app, app_length. cbn [length]. rewrite Nat.add_1_r, Nat.pow_succ_r'.
  specialize (IH H1). nia.
Qed.
Lemma ravel_inj M a b : length a = length b -> Forall (fun d => (d < M)%nat) a -> Forall (fun d => (d < M)%nat) b -> ravel M a = ravel M b -> a = b.
Proof.
  revert b. induction a as [|x a IH] using rev_ind; intros b Hl Ha Hb E.
  - destruct b; [reflexivity|discriminate].
  - destruct b as [|y b _] using rev_ind; [rewrite app_length in Hl; cbn in Hl; lia|].
    rewrite !app_length in Hl. cbn in Hl. apply Forall_app in Ha as [Ha1 Ha2]. apply Forall_app in Hb as [Hb1 Hb2].
    inversion Ha2; subst. inversion Hb2; subst. rewrite !ravel_app in E.
    assert (ravel M a = ravel M b /\ x = y) as [E1 ->].
    { assert (Hx : x = ((ravel M a * M + x) mod M)%nat) by (rewrite Nat.add_comm, Nat.mod_add, Nat.mod_small; lia).
      assert (Hy : y = ((ravel M b * M + y) mod M)%nat) by (rewrite Nat.add_comm, Nat.mod_add, Nat.mod_small; lia).
      assert (x = y) by congruence. split; [|assumption]. subst. nia. }
    f_equal. apply IH; auto. lia.
Qed.
Lemma ravel_onto M N k : (k < M ^ N)%nat -> exists ds, digits M N ds /\ ravel M ds = k.
Proof.
  revert k. induction N as [|N IH]; intros k Hk.
  - exists []. cbn in *. repeat split; [constructor|]. lia.
  - rewrite Nat.pow_succ_r' in Hk. assert (M <> 0)%nat by (intros ->; cbn in Hk; lia).
    destruct (IH (k / M)%nat) as (ds & [L F] & E); [apply Nat.div_lt_upper_bound; lia|].
    exists (ds ++ [(k mod M)%nat]). rewrite ravel_app, E. repeat split.
    + rewrite app_length. cbn. lia.
    + apply Forall_app. split; [assumption|]. constructor; [|constructor]. now apply Nat.mod_upper_bound.
    + pose proof (Nat.div_mod k M). lia.
Qed.

(** ** patterns *)
Lemma cyc_lt {A} (l : list A) i : (0 < length l)%nat -> cyc l i <> None.
Proof. intros H. unfold cyc. apply nth_error_Some. apply Nat.mod_upper_bound. lia. Qed.

(** the window that starts at i *)
Definition wind (l : list nat) (N i : nat) : list nat := map (fun j => nth ((i + j) mod length l) l 0%nat) (seq 0 N).
Lemma wind_nth l N i j : (0 < length l)%nat -> (j < N)%nat -> nth_error (wind l N i) j = cyc l (i + j).
Proof.
  intros Hl Hj. unfold wind. rewrite nth_error_map_seq by assumption. cbn [Nat.add]. unfold cyc.
  symmetry. apply nth_error_nth'. apply Nat.mod_upper_bound. lia.
Qed.
Lemma wind_digits l M N i : (0 < length l)%nat -> Forall (fun d => (d < M)%nat) l -> digits M N (wind l N i).
Proof.
  intros Hl H. split; [unfold wind; now rewrite map_length, seq_length|]. apply Forall_forall. intros d Hd.
  unfold wind in Hd. apply in_map_iff in Hd as (j & <- & _). rewrite Forall_forall in H. apply H. apply nth_In. apply Nat.mod_upper_bound. lia.
Qed.
Lemma pattern_numbers_ok M N l : (0 < length l)%nat -> Forall (fun d => (d < M)%nat) l -> (N <= length l + 1)%nat ->
  pattern_numbers M N l = Ok (map (fun i => ravel M (wind l N i)) (seq 0 (length l))).
Proof.
  intros Hl HF HN. unfold pattern_numbers. destruct (roll_wrap l N HN) as (out & E & Lo & Ho). rewrite E. cbn [bind].
  assert (Eo : out = map (fun i => map Some (wind l N i)) (seq 0 (length l))).
  { apply nth_error_ext_lt; [now rewrite map_length, seq_length|]. intros i Hi. rewrite Lo in Hi.
    rewrite nth_error_map_seq by assumption. cbn [Nat.add]. destruct (Ho i Hi) as (row & Er & Lr & Hr). rewrite Er. f_equal.
    apply nth_error_ext_lt; [unfold wind; now rewrite !map_length, seq_length|]. intros j Hj. rewrite Lr in Hj.
    destruct (Hr j Hj) as [E1 E2]. rewrite E1, nth_error_map, wind_nth by assumption. destruct (cyc l (i + j)); [reflexivity|congruence]. }
  subst out. rewrite PilotP.mapM_map. apply mapM_ok. intros i _.
  assert (Em : mapM (fun o => match o with Some d => if (d <? M)%nat then Ok d else Err IndexError | None => Err IndexError end) (map Some (wind l N i)) = Ok (wind l N i)).
  { rewrite PilotP.mapM_map. rewrite <- (map_id (wind l N i)) at 2. apply mapM_ok. intros d Hd.
    pose proof (wind_digits l M N i Hl HF) as [_ Hw]. rewrite Forall_forall in Hw. specialize (Hw d Hd). destruct (Nat.ltb_spec d M); [reflexivity|lia]. }
  rewrite Em. reflexivity.
Qed.

(** nearest level *)
Lemma argmin_level ref x : ref <> [] -> exists i, argmin (map (fun s => Rabs (x - s)) ref) = Ok i /\ nearest_level ref x i /\ (i < length ref)%nat.
Proof.
  intros Hne. destruct (argmin (map (fun s => Rabs (x - s)) ref)) as [i|e] eqn:E.
  - exists i. split; [reflexivity|]. apply argmin_spec in E as (d & Ed & Hmin & Hfirst).
    rewrite nth_error_map in Ed. destruct (nth_error ref i) as [s|] eqn:Es; [|discriminate]. cbn in Ed. injection Ed as <-.
    split; [|eapply nth_error_Some_lt; eassumption]. exists s. split; [assumption|]. intros j t Hj.
    assert (Hj' : nth_error (map (fun s => Rabs (x - s)) ref) j = Some (Rabs (x - t))) by (rewrite nth_error_map, Hj; reflexivity).
    split; [eapply Hmin; eassumption|]. intros Hji. eapply Hfirst; eassumption.
  - exfalso. destruct ref; [congruence|discriminate].
Qed.
Lemma nearest_levels_ok sig ref : ref <> [] -> exists ix, nearest_levels sig ref = Ok ix /\ length ix = length sig /\
  Forall (fun d => (d < length ref)%nat) ix /\ Forall2 (nearest_level ref) sig ix.
Proof.
  intros Hne. unfold nearest_levels. induction sig as [|x sig IH]; cbn [mapM].
  - exists []. repeat split; constructor.
  - destruct (argmin_level ref x Hne) as (i & -> & Hi & Hl). destruct IH as (ix & -> & L & F & F2). cbn [bind].
    exists (i :: ix). cbn. repeat split; auto.
Qed.

(** ** averages *)
Definition sel (p : nat) (ix : list nat) (ev : list R) : list R := map snd (filter (fun q => (fst q =? p)%nat) (combine ix ev)).
Lemma lut_acc_ok N : forall ev ix acc cnt, (length ev <= length ix)%nat -> Forall (fun i => (i < N)%nat) ix -> length acc = N -> length cnt = N ->
  exists acc' cnt', lut_acc ix ev acc cnt = Ok (acc', cnt') /\ length acc' = N /\ length cnt' = N /\
    forall p a n, nth_error acc p = Some a -> nth_error cnt p = Some n ->
      nth_error acc' p = Some (a + Rsum (sel p ix ev)) /\ nth_error cnt' p = Some (n + length (sel p ix ev))%nat.
Proof.
  induction ev as [|e ev IH]; intros ix acc cnt Hl HF La Lc.
  - exists acc, cnt. cbn [lut_acc]. split; [reflexivity|]. split; [assumption|]. split; [assumption|]. intros p a n Hp Hn.
    assert (E : sel p ix [] = []) by (unfold sel; destruct ix; reflexivity). rewrite E. change (Rsum []) with 0. cbn [length].
    rewrite Rplus_0_r, Nat.add_0_r. now split.
  - destruct ix as [|i ix]; [cbn in Hl; lia|]. inversion HF; subst. cbn [lut_acc]. unfold getn.
    destruct (nth_error_lt_Some acc i ltac:(lia)) as (a0 & Ea). destruct (nth_error_lt_Some cnt i ltac:(lia)) as (n0 & En). rewrite Ea, En. cbn [bind].
    destruct (IH ix (upd i (a0 + e) acc) (upd i (S n0) cnt)) as (acc' & cnt' & E & L1 & L2 & G); rewrite ?upd_length; try assumption; try (cbn in Hl; lia); try congruence.
    exists acc', cnt'. split; [exact E|]. split; [assumption|]. split; [assumption|]. intros p a n Hp Hn.
    unfold sel in *. cbn [combine filter fst snd]. destruct (Nat.eqb_spec i p) as [->|Hne].
    + assert (a0 = a) by congruence. assert (n0 = n) by congruence. subst a0 n0.
      destruct (G p (a + e) (S n)) as [G1 G2]; [apply upd_nth_same; lia|apply upd_nth_same; lia|].
      rewrite G1, G2. cbn [map length]. rewrite Rsum_cons. split; f_equal; [cbn [snd]; lra|lia].
    + apply G; rewrite upd_nth_other; assumption.
Qed.

Lemma nth_error_combine {X Y} (x : list X) (y : list Y) k u w : nth_error x k = Some u -> nth_error y k = Some w -> nth_error (combine x y) k = Some (u, w).
Proof.
  revert y k. induction x as [|a x IH]; intros [|b y] [|k] Hu Hw; cbn in *; try discriminate; [congruence|now apply IH].
Qed.

Lemma mean0_avg l : (0 + Rsum l) / INR (if (0 + length l =? 0)%nat then 1%nat else (0 + length l)%nat) = mean0 l.
Proof.
  destruct l as [|x l].
  - cbn [length Nat.add Nat.eqb]. change (Rsum []) with 0. cbn. field.
  - cbn [length Nat.add Nat.eqb]. unfold mean0. rewrite Rplus_0_l. reflexivity.
Qed.

Lemma lut_avg1_ok ev ix N : (length ev <= length ix)%nat -> Forall (fun i => (i < N)%nat) ix ->
  exists out, lut_avg1 ev ix N = Ok out /\ length out = N /\ forall p, (p < N)%nat -> nth_error out p = Some (mean0 (sel p ix ev)).
Proof.
  intros Hl HF. unfold lut_avg1. destruct (lut_acc_ok N ev ix (repeat 0 N) (repeat 0%nat N) Hl HF) as (acc & cnt & E & L1 & L2 & G); try apply repeat_length.
  rewrite E. cbn [bind fst snd]. eexists. split; [reflexivity|]. split; [rewrite map_length, combine_length; lia|].
  intros p Hp. destruct (G p 0 0%nat) as [G1 G2]; [now apply nth_error_repeat_lt|now apply nth_error_repeat_lt|].
  rewrite nth_error_map, (nth_error_combine _ _ _ _ _ G1 G2). cbn [option_map fst snd]. f_equal. apply mean0_avg.
Qed.

Lemma cal_lut_avg_ok err iI iQ N : (length err <= length iI)%nat -> (length err <= length iQ)%nat ->
  Forall (fun i => (i < N)%nat) iI -> Forall (fun i => (i < N)%nat) iQ ->
  exists out, cal_lut_avg err iI iQ N = Ok out /\ length out = N /\
    forall p, (p < N)%nat -> nth_error out p = Some (mean0 (sel p iI (map fst err)), mean0 (sel p iQ (map snd err))).
Proof.
  intros H1 H2 H3 H4. unfold cal_lut_avg.
  destruct (lut_avg1_ok (map fst err) iI N) as (oi & Ei & Li & Gi); [now rewrite map_length|assumption|].
  destruct (lut_avg1_ok (map snd err) iQ N) as (oq & Eq & Lq & Gq); [now rewrite map_length|assumption|].
  rewrite Ei, Eq. cbn [bind]. eexists. split; [reflexivity|]. split; [pose proof (combine_length oi oq) as HL; etransitivity; [exact HL|lia]|].
  intros p Hp. apply nth_error_combine; auto.
Qed.

(** ** cal_lut *)
Lemma nonzero_from_filter k m : nonzero_from k m = filter (fun i => nth (i - k) m false) (seq k (length m)).
Proof.
  revert k. induction m as [|b m IH]; intros k; [reflexivity|]. cbn [nonzero_from length seq filter]. rewrite Nat.sub_diag. cbn [nth].
  assert (E : filter (fun i => nth (i - S k) m false) (seq (S k) (length m)) = filter (fun i => nth (i - k) (b :: m) false) (seq (S k) (length m))).
  { apply filter_ext_in. intros i Hi. apply in_seq in Hi. replace (i - k)%nat with (S (i - S k)) by lia. reflexivity. }
  rewrite IH, E. destruct b; reflexivity.
Qed.
Lemma nonzero_filter m : nonzero m = filter (fun i => nth i m false) (seq 0 (length m)).
Proof. unfold nonzero. rewrite nonzero_from_filter. apply filter_ext. intros i. now rewrite Nat.sub_0_r. Qed.
Lemma mask_sel_map {A} (d : A) m (l : list A) : length m = length l -> mask_sel m l = map (fun k => nth k l d) (nonzero m).
Proof.
  unfold nonzero. revert l. induction m as [|b m IH]; intros [|x l] H; try discriminate; [reflexivity|]. cbn [length] in H.
  cbn [mask_sel nonzero_from]. rewrite (PilotP.nonzero_from_shift 1), IH by lia. unfold nonzero.
  assert (E : map (fun k => nth k (x :: l) d) (map (fun i => (i + 1)%nat) (nonzero_from 0 m)) = map (fun k => nth k l d) (nonzero_from 0 m)).
  { rewrite map_map. apply map_ext. intros i. now rewrite Nat.add_1_r. }
  destruct b; [cbn [map]; f_equal|]; symmetry; exact E.
Qed.
Lemma sel_map p (f : nat -> nat) (g : nat -> R) ks : sel p (map f ks) (map g ks) = map g (filter (fun k => (f k =? p)%nat) ks).
Proof.
  unfold sel. induction ks as [|k ks IH]; [reflexivity|]. cbn [map combine filter fst]. destruct (f k =? p)%nat; cbn [map snd]; now rewrite IH.
Qed.
Lemma filter_filter {A} (f g : A -> bool) l : filter f (filter g l) = filter (fun x => g x && f x) l.
Proof. induction l as [|x l IH]; [reflexivity|]. cbn [filter]. destruct (g x); cbn [filter andb]; [destruct (f x)|]; now rewrite IH. Qed.

Lemma wind_pattern l N k : (0 < length l)%nat -> (N / 2 <= length l)%nat -> (k < length l)%nat ->
  wind l N ((k + length l - N / 2) mod length l) = pattern_of l N k.
Proof.
  intros Hl HN Hk. unfold wind, pattern_of. apply map_ext. intros j. f_equal. now rewrite Nat.add_mod_idemp_l by lia.
Qed.

Section OnePart.
Variables (sig ref : list R) (mem : nat) (mask : list bool) (M : nat).
Hypothesis (HM : length ref = M) (Hne : ref <> []) (Hlen : length mask = length sig) (H0 : (0 < length sig)%nat) (H1 : (mem <= length sig + 1)%nat).
Lemma one_part : exists ps iI, find_sym_patterns sig ref mem = Ok ps /\ mapM (getz ps) (map (fun k => (Z.of_nat k - Z.of_nat (mem / 2))%Z) (nonzero mask)) = Ok iI /\ length iI = length (nonzero mask) /\ Forall (fun i => (i < M ^ mem)%nat) iI /\ forall ix, Forall2 (nearest_level ref) sig ix -> iI = map (fun k => ravel M (pattern_of ix mem k)) (nonzero mask).
Proof.
  assert (Hm2 : (mem / 2 <= length sig)%nat) by (pose proof (Nat.div_le_upper_bound mem 2 (length sig)); lia).
  unfold find_sym_patterns. destruct (nearest_levels_ok sig ref Hne) as (ix & -> & L & F & F2). cbn [bind].
  rewrite pattern_numbers_ok by (rewrite ?L; lia || exact F). rewrite L, HM in *. eexists.
  exists (map (fun k => ravel M (pattern_of ix mem k)) (nonzero mask)). split; [reflexivity|].
  assert (Hnz : forall k, In k (nonzero mask) -> (k < length sig)%nat).
  { intros k Hk. apply nonzero_spec in Hk. rewrite <- Hlen. eapply nth_error_Some_lt; eassumption. }
  split.
  { rewrite PilotP.mapM_map. apply mapM_ok. intros k Hk. specialize (Hnz k Hk).
    unfold getz. rewrite map_length, seq_length.
    assert (E : forall i, (i < length sig)%nat -> i = ((k + length sig - mem / 2) mod length sig)%nat ->
       getn (map (fun i => ravel M (wind ix mem i)) (seq 0 (length sig))) i = Ok (ravel M (pattern_of ix mem k))).
    { intros i Hi Ei. unfold getn. rewrite nth_error_map_seq by assumption. cbn [Nat.add]. rewrite Ei, <- L, wind_pattern by lia. reflexivity. }
    destruct (Z.leb_spec 0 (Z.of_nat k - Z.of_nat (mem / 2))).
    - apply E; [lia|]. replace (k + length sig - mem / 2)%nat with ((k - mem / 2) + 1 * length sig)%nat by lia. rewrite Nat.mod_add, Nat.mod_small by lia. lia.
    - destruct (Z.leb_spec (- Z.of_nat (length sig)) (Z.of_nat k - Z.of_nat (mem / 2))); [|lia].
      apply E; [lia|]. rewrite Nat.mod_small by lia. lia. }
  split; [apply map_length|]. split.
  - apply Forall_forall. intros i Hi. apply in_map_iff in Hi as (k & <- & Hk). specialize (Hnz k Hk).
    rewrite <- wind_pattern by lia. destruct (wind_digits ix M mem ((k + length ix - mem / 2) mod length ix)) as [W1 W2]; [lia|exact F|].
    apply ravel_lt in W2. rewrite W1 in W2. exact W2.
  - intros ix' F'. f_equal. assert (ix' = ix) as ->; [|reflexivity].
    clear - F' F2. revert ix F2. induction F' as [|x i s ix' Hx _ IH]; intros ix F2; inversion F2; subst; [reflexivity|]. f_equal; [|now apply IH].
    destruct Hx as (s1 & E1 & M1). destruct H1 as (s2 & E2 & M2).
    destruct (M1 _ _ E2) as [A1 A2]. destruct (M2 _ _ E1) as [B1 B2].
    destruct (Nat.lt_trichotomy i y) as [Hl|[Hl|Hl]]; [specialize (B2 Hl); lra|assumption|specialize (A2 Hl); lra].
Qed.
End OnePart.

Lemma insert_unique_ne x l : insert_unique x l <> [].
Proof. destruct l; cbn; [discriminate|]. destruct (Rlt_dec x r); [discriminate|]. destruct (Rlt_dec r x); discriminate. Qed.
Lemma unique_ne l : l <> [] -> unique l <> [].
Proof. destruct l; [congruence|]. intros _. apply insert_unique_ne. Qed.

Lemma ravel_eqb M N a b : digits M N a -> digits M N b -> (ravel M a =? ravel M b)%nat = if list_eq_dec Nat.eq_dec a b then true else false.
Proof.
  intros [La Fa] [Lb Fb]. destruct (list_eq_dec Nat.eq_dec a b) as [->|Hn]; [apply Nat.eqb_refl|].
  apply Nat.eqb_neq. intros E. apply Hn. eapply ravel_inj; eauto. congruence.
Qed.
Lemma pattern_digits ref sig ix mem k : (0 < length sig)%nat -> Forall2 (nearest_level ref) sig ix -> digits (length ref) mem (pattern_of ix mem k).
Proof.
  intros Hl F. split; [unfold pattern_of; now rewrite map_length, seq_length|]. apply Forall_forall. intros d Hd.
  unfold pattern_of in Hd. apply in_map_iff in Hd as (j & <- & _).
  assert (HF : Forall (fun d => (d < length ref)%nat) ix).
  { clear - F. induction F as [|x i s ix (s0 & E & _) _ IH]; constructor; [eapply nth_error_Some_lt; eassumption|assumption]. }
  rewrite Forall_forall in HF. apply HF. apply nth_In. apply Nat.mod_upper_bound. assert (length sig = length ix) by (clear - F; induction F; cbn; lia). lia.
Qed.

Lemma sel_where ref sig ix mem mask ds (g : nat -> R) : (0 < length sig)%nat -> length mask = length sig -> Forall2 (nearest_level ref) sig ix -> digits (length ref) mem ds ->
  sel (ravel (length ref) ds) (map (fun k => ravel (length ref) (pattern_of ix mem k)) (nonzero mask)) (map g (nonzero mask)) =
  map g (where_pattern mask ix mem ds).
Proof.
  intros H0 Hm F Hd. rewrite sel_map. f_equal. unfold where_pattern. rewrite nonzero_filter, filter_filter. apply filter_ext. intros k. f_equal.
  erewrite ravel_eqb; [reflexivity|eapply pattern_digits; eassumption|exact Hd].
Qed.

Lemma cal_lut_ok tx rx ref mem mask : (0 < length tx)%nat -> length rx = length tx -> length mask = length tx -> ref <> [] -> (mem <= length tx + 1)%nat ->
  (length (unique (map snd ref)) <= length (unique (map fst ref)))%nat ->
  let LI := unique (map fst ref) in let LQ := unique (map snd ref) in
  exists ea iI iQ, cal_lut tx rx ref mem mask = Ok (ea, iI, iQ) /\ length ea = (length LI ^ mem)%nat /\ (forall ix ds, Forall2 (nearest_level LI) (map fst tx) ix -> digits (length LI) mem ds ->
       option_map fst (nth_error ea (ravel (length LI) ds)) =
         Some (mean0 (map (fun k => fst (nth k tx C0) - fst (nth k rx C0)) (where_pattern mask ix mem ds)))) /\ (forall ix ds, Forall2 (nearest_level LQ) (map snd tx) ix -> digits (length LQ) mem ds ->
       option_map snd (nth_error ea (ravel (length LQ) ds)) =
         Some (mean0 (map (fun k => snd (nth k tx C0) - snd (nth k rx C0)) (where_pattern mask ix mem ds)))).
Proof.
  intros H0 Hr Hm Href Hmem HQ LI LQ. unfold cal_lut. rewrite Hr, Nat.eqb_refl. cbn [negb]. fold LI LQ.
  assert (HneI : LI <> []) by (apply unique_ne; destruct ref; [congruence|discriminate]).
  assert (HneQ : LQ <> []) by (apply unique_ne; destruct ref; [congruence|discriminate]).
  destruct (one_part (map fst tx) LI mem mask (length LI)) as (pI & iI & -> & EI & LenI & FI & GI); rewrite ?map_length; try assumption; try reflexivity.
  destruct (one_part (map snd tx) LQ mem mask (length LQ)) as (pQ & iQ & -> & EQ & LenQ & FQ & GQ); rewrite ?map_length; try assumption; try reflexivity.
  cbn [bind]. rewrite EI, EQ. cbn [bind]. set (err := map (fun p => (fst p - snd p)%C) (combine tx rx)).
  assert (Lerr : length err = length tx) by (unfold err; rewrite map_length, combine_length; lia).
  assert (Nerr : forall k, (k < length tx)%nat -> nth k err C0 = (nth k tx C0 - nth k rx C0)%C).
  { intros k Hk. apply nth_error_nth. unfold err. rewrite nth_error_map.
    rewrite (nth_error_combine tx rx k (nth k tx C0) (nth k rx C0)) by (apply nth_error_nth'; lia). reflexivity. }
  assert (Hnz : forall k, In k (nonzero mask) -> (k < length tx)%nat).
  { intros k Hk. apply nonzero_spec in Hk. rewrite <- Hm. eapply nth_error_Some_lt; eassumption. }
  unfold mask_get. rewrite Lerr, Hm, Nat.eqb_refl. cbn [bind]. rewrite (mask_sel_map C0) by lia.
  assert (Eerr : map (fun k => nth k err C0) (nonzero mask) = map (fun k => (nth k tx C0 - nth k rx C0)%C) (nonzero mask)).
  { apply map_ext_in. intros k Hk. now apply Nerr, Hnz. }
  rewrite Eerr. set (ev := map (fun k => (nth k tx C0 - nth k rx C0)%C) (nonzero mask)).
  assert (Lev : length ev = length (nonzero mask)) by apply map_length.
  assert (Hpow : (length LQ ^ mem <= length LI ^ mem)%nat) by (apply Nat.pow_le_mono_l; exact HQ).
  destruct (cal_lut_avg_ok ev iI iQ (length LI ^ mem)) as (ea & Ea & La & Ga); [lia|lia|exact FI| |].
  { eapply Forall_impl; [|exact FQ]. cbn. lia. }
  rewrite Ea. cbn [bind]. exists ea, iI, iQ. split; [reflexivity|]. split; [assumption|]. split.
  - intros ix ds F Hd. pose proof Hd as [Ld Fd]. rewrite Ga by (rewrite <- Ld; now apply ravel_lt). cbn [option_map fst]. f_equal. f_equal.
    rewrite (GI ix F). unfold ev. rewrite map_map. erewrite sel_where; [|rewrite map_length; exact H0|now rewrite map_length|exact F|exact Hd].
    reflexivity.
  - intros ix ds F Hd. pose proof Hd as [Ld Fd].
    assert (Hlt : (ravel (length LQ) ds < length LQ ^ mem)%nat) by (rewrite <- Ld; now apply ravel_lt).
    rewrite Ga by lia. cbn [option_map snd]. f_equal. f_equal.
    rewrite (GQ ix F). unfold ev. rewrite map_map. erewrite sel_where; [|rewrite map_length; exact H0|now rewrite map_length|exact F|exact Hd].
    reflexivity.
Qed.

(** a memory longer than the sequence + 1 reads outside the buffer *)
Lemma pattern_oob M N l : (1 <= length l)%nat -> (length l + 1 < N)%nat -> Forall (fun d => (d < M)%nat) l -> exists e, pattern_numbers M N l = Err e.
Proof.
  intros H1 H2 HF. unfold pattern_numbers. destruct (roll_wrap_oob l N H1 H2) as (out & row & -> & Er & En). cbn [bind].
  apply PilotP.mapM_err_in with (x := row); [eapply nth_error_In; eassumption|].
  destruct (mapM _ row) as [ds|e] eqn:E; [|exists e; reflexivity]. exfalso.
  assert (HN : In None row) by (eapply nth_error_In; eassumption).
  clear - E HN. revert ds E. induction row as [|o row IH]; intros ds E; [destruct HN|]. cbn [mapM] in E. destruct HN as [->|HN]; [discriminate|].
  destruct o as [d|]; [|discriminate]. destruct (d <? M)%nat; [|discriminate]. cbn [bind] in E.
  destruct (mapM _ row) eqn:E2; [|discriminate]. eapply IH; eauto.
Qed.
