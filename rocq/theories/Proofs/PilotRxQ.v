From Coq Require Import List ZArith Arith Bool Reals Lia Lra ZifyBool ZifyNat Permutation.
From Verif Require Import Common.Py Common.ListX Common.Cplx Common.SumX Model.Decision Model.Sync Model.Pilots Model.Equaliser Model.Phase
  Model.PilotRx Spec.Seq Spec.Equal Spec.PilotSpec Proofs.DecisionP Proofs.CorrP Proofs.SyncQ Proofs.PilotP Proofs.PilotRxP.
Import ListNotations.
Open Scope list_scope.

(** ** correlation of a short with a long sequence *)
Lemma csum_pad n N M (g : Z -> C) : n + M <= N -> (forall z, ~ (0 <= z < Z.of_nat n)%Z -> g z = C0) ->
  csum n (fun k => g (Z.of_nat k)) = csum N (fun k => g (Z.of_nat k - Z.of_nat M)%Z).
Proof.
  intros HN Hz. replace N with (M + (n + (N - M - n))) by lia. rewrite !csum_app.
  set (a := csum M _). set (b := csum n (fun i => g (Z.of_nat (M + i) - Z.of_nat M)%Z)). set (c := csum (N - M - n) _).
  assert (Ha : a = C0) by (apply csum_zero; intros i Hi; apply Hz; lia).
  assert (Hc : c = C0) by (apply csum_zero; intros i Hi; apply Hz; lia).
  assert (Hb : b = csum n (fun k => g (Z.of_nat k))) by (apply csum_ext; intros i Hi; f_equal; lia).
  rewrite Ha, Hb, Hc. cring.
Qed.
Lemma corr_sym x y d : corr x y d = Cconj (corr y x (- d)).
Proof.
  set (M := Z.to_nat (Z.abs d)). set (N := length x + length y + 2 * M + 2 * M).
  set (g := fun z => (ext x (d + z) * Cconj (ext y z))%C). set (h := fun z => (ext y (- d + z) * Cconj (ext x z))%C).
  unfold corr. rewrite csum_conj.
  change (csum (length y) (fun k => g (Z.of_nat k)) = csum (length x) (fun k => (fun z => Cconj (h z)) (Z.of_nat k))).
  rewrite (csum_pad (length y) N M g) by (solve [unfold N, M; lia | intros z Hz; unfold g; rewrite (ext_out y) by lia; cring]).
  rewrite (csum_pad (length x) N (Z.to_nat (Z.of_nat M - d)) (fun z => Cconj (h z))).
  - apply csum_ext. intros k Hk. unfold g, h. rewrite Cconj_mul, Cconj_invol.
    replace (- d + (Z.of_nat k - Z.of_nat (Z.to_nat (Z.of_nat M - d))))%Z with (Z.of_nat k - Z.of_nat M)%Z by (unfold M; lia).
    replace (d + (Z.of_nat k - Z.of_nat M))%Z with (Z.of_nat k - Z.of_nat (Z.to_nat (Z.of_nat M - d)))%Z by (unfold M; lia). ring.
  - unfold N, M. lia.
  - intros z Hz. unfold h. rewrite (ext_out x) by lia. cring.
Qed.
Lemma unit_in l : unit_modulus l -> forall s, In s l -> Cnorm2 s = 1%R.
Proof. intros H s Hs. eapply Forall_forall in H; eauto. Qed.
Lemma seq_energy_unit r : unit_modulus r -> seq_energy r = INR (length r).
Proof.
  intros H. unfold seq_energy, energy_at. rewrite (rsum_ext _ _ (fun _ => 1%R)); [rewrite rsum_const; ring|].
  intros k Hk. cbn [Z.add]. destruct (nth_error_lt_Some r k Hk) as [s Es]. rewrite (ext_in r k s Es). apply (unit_in r H), (nth_error_In _ _ Es).
Qed.
Lemma Cabs_conj z : Cabs (Cconj z) = Cabs z.
Proof. unfold Cabs. now rewrite Cnorm2_conj. Qed.
Lemma fst_le_abs z : (fst z <= Cabs z)%R.
Proof.
  unfold Cabs, Cnorm2. destruct z as [a b]. cbn [fst snd]. destruct (Rle_dec a 0) as [H|H].
  - eapply Rle_trans; [exact H|apply sqrt_pos].
  - rewrite <- (sqrt_square a) at 1 by lra. apply sqrt_le_1; nra.
Qed.
Section Found.
Variables (r s : list C) (Hr : r <> []) (Hs : s <> []) (Ur : unit_modulus r) (Us : unit_modulus s).
Lemma corr_le d : (Cabs (corr r s d) <= INR (length r))%R.
Proof.
  rewrite corr_sym, Cabs_conj, <- (seq_energy_unit r Ur).
  destruct (const_modulus_energy s r 1 (- d) ltac:(lra) (unit_in s Us) (unit_in r Ur)) as [Hn He].
  apply Cabs_le_sqr; [apply Rlt_le, seq_energy_pos; assumption|]. apply corr_bound. exact He.
Qed.
Lemma corr_max d : Cabs (corr r s d) = INR (length r) -> exists u, Cnorm2 u = 1%R /\ occurs_at s r (- d) u.
Proof.
  rewrite corr_sym, Cabs_conj, <- (seq_energy_unit r Ur). intros E.
  destruct (const_modulus_energy s r 1 (- d) ltac:(lra) (unit_in s Us) (unit_in r Ur)) as [Hn He].
  destruct (corr_max_occurs s r (- d) Hr Hn He) as (u & Hu & Ho & _); [rewrite <- Cabs_sqr, E; reflexivity|].
  exists u. auto.
Qed.
Lemma corr_first_ne : corr r s (Z.of_nat (length r) - 1) <> C0.
Proof.
  assert (Hl : 0 < length r) by (destruct r; [congruence|cbn; lia]).
  assert (Hl' : 0 < length s) by (destruct s; [congruence|cbn; lia]).
  unfold corr. rewrite (csum_single _ _ 0 Hl').
  - destruct (nth_error_lt_Some s 0 Hl') as [a Ea]. destruct (nth_error_lt_Some r (length r - 1) ltac:(lia)) as [b Eb].
    replace (Z.of_nat (length r) - 1 + Z.of_nat 0)%Z with (Z.of_nat (length r - 1)) by lia.
    rewrite (ext_in _ _ _ Ea), (ext_in _ _ _ Eb). intros H. apply (f_equal Cnorm2) in H.
    rewrite Cnorm2_mul, Cnorm2_conj, Cnorm2_0, (unit_in r Ur b), (unit_in s Us a) in H by (eapply nth_error_In; eauto). lra.
  - intros i Hi Hne. rewrite (ext_out r) by lia. cring.
Qed.
Lemma quarter_conj q : q < 4 -> exists q', q' < 4 /\ (Cconj (quarter q') * Cconj (quarter q))%C = C1.
Proof.
  intros Hq. exists ((4 - q) mod 4). destruct q as [|[|[|[|]]]]; try lia; (split; [cbn; lia|]); cbn [Nat.modulo Nat.divmod Nat.sub fst snd quarter]; cring.
Qed.
Lemma pilot_found p q : q < 4 -> found_once s r p q ->
  exists t ii, find_sequence_offset_complex r s = Ok ((- p)%Z, t, ii, INR (length r)).
Proof.
  intros Hq [Ho Hu]. destruct (c15 r s Hr Hs) as [_ H]. destruct (H _ corr_first_ne) as (ix & ii & acm & E & Hii & Hl & Hp & Hm & (d & Hd) & Hall).
  assert (Hat : corr r s (- p) = Cscal (INR (length r)) (Cconj (quarter q))).
  { rewrite corr_sym, Z.opp_involutive, (occurs_corr s r p _ Ho), (seq_energy_unit r Ur). cring. }
  assert (Ea : acm = INR (length r)).
  { apply Rle_antisym.
    - rewrite Hd. eapply Rle_trans; [apply fst_le_abs|]. rewrite Cabs_corr_turned. apply corr_le.
    - destruct (quarter_conj q Hq) as (q' & Hq' & E1). specialize (Hall q' (- p)%Z Hq'). rewrite corr_turned, Hat in Hall.
      replace (Cconj (quarter q') * Cscal (INR (length r)) (Cconj (quarter q)))%C with (Cscal (INR (length r)) (Cconj (quarter q') * Cconj (quarter q))%C) in Hall by cring.
      rewrite E1 in Hall. unfold Cscal, C1 in Hall. cbn [fst snd] in Hall. lra. }
  assert (Ei : Cabs (corr r s ix) = INR (length r)).
  { apply Rle_antisym; [apply corr_le|]. specialize (Hm (- p)%Z). rewrite Hat, Cabs_scal_unit in Hm; [exact Hm|apply pos_INR|].
    rewrite Cnorm2_conj. apply quarter_unit. }
  destruct (corr_max ix Ei) as (u & Hu1 & Hocc). specialize (Hu _ _ Hu1 Hocc).
  exists (turned ii s), ii. rewrite E, Ea. replace ix with (- p)%Z by lia. reflexivity.
Qed.
Lemma pilot_absent : absent s r -> exists ix t ii acm, find_sequence_offset_complex r s = Ok (ix, t, ii, acm) /\ (acm < INR (length r))%R.
Proof.
  intros Ha. destruct (c15 r s Hr Hs) as [_ H]. destruct (H _ corr_first_ne) as (ix & ii & acm & E & Hii & Hl & Hp & Hm & (d & Hd) & Hall).
  exists ix, (turned ii s), ii, acm. split; [exact E|].
  destruct (Rle_lt_or_eq_dec acm (INR (length r))) as [Hlt|Heq]; [|exact Hlt|].
  - rewrite Hd. eapply Rle_trans; [apply fst_le_abs|]. rewrite Cabs_corr_turned. apply corr_le.
  - exfalso. assert (Ei : Cabs (corr r s d) = INR (length r)).
    { apply Rle_antisym; [apply corr_le|]. rewrite <- Heq, Hd, <- (Cabs_corr_turned r s ii). apply fst_le_abs. }
    destruct (corr_max d Ei) as (u & Hu1 & Hocc). exact (Ha _ _ Hu1 Hocc).
Qed.
End Found.

(** ** lengths of the search symbols *)
Lemma mapM_in_ok {A B} (f : A -> result B) l bs b : mapM f l = Ok bs -> In b bs -> exists a, In a l /\ f a = Ok b.
Proof.
  revert bs. induction l as [|a l IH]; intros bs H Hb; cbn in H; [injection H as <-; destruct Hb|].
  destruct (f a) eqn:E; [|discriminate]. cbn in H. destruct (mapM f l) as [bs'|] eqn:El; [|discriminate].
  cbn in H. injection H as <-. destruct Hb as [<-|Hb]; [exists a; split; [left; reflexivity|exact E]|].
  destruct (IH bs' eq_refl Hb) as (a' & Ha & Ea). exists a'. split; [right; exact Ha|exact Ea].
Qed.
Lemma caf_row_len e l os w nt out : core_apply_filter (ArrC e) l os (TapsC w) nt None = Ok out ->
  Forall (fun r => length r = Z.to_nat ((Z.of_nat l - Z.of_nat nt + 1) / Z.of_nat os)) out.
Proof.
  unfold core_apply_filter, apply_filter_to_signal. cbv zeta. intros H.
  destruct (_ <? 0)%Z; [discriminate|]. apply Forall_forall. intros r Hr.
  destruct (mapM_in_ok _ _ _ _ H Hr) as (m & _ & Em). apply mapM_length in Em. rewrite Em, seq_length. reflexivity.
Qed.
Lemma getn_some {A} (l : list A) i a : getn l i = Ok a -> nth_error l i = Some a.
Proof. unfold getn. destruct (nth_error l i); [intros H; injection H as <-; reflexivity|discriminate]. Qed.
Lemma foc_row s fo os s' l r : comp_freq_offset s fo os = Ok s' -> getn s' l = Ok r ->
  exists r0, nth_error s l = Some r0 /\ length r = length r0.
Proof.
  unfold comp_freq_offset. intros H Hg. apply getn_some in Hg.
  assert (Hl : l < length s). { apply mapM_length in H. rewrite seq_length in H. rewrite <- H. apply nth_error_Some. congruence. }
  destruct (mapM_nth _ _ _ l l H) as (b & Hb & Eb). { rewrite ListX.nth_error_seq by exact Hl. reflexivity. }
  rewrite Hg in Hb. injection Hb as <-. unfold getn in Eb. destruct (nth_error s l) as [r0|]; [|discriminate].
  cbn in Eb. destruct (nth_error fo l); [|discriminate]. cbn in Eb. injection Eb as <-. exists r0. split; [reflexivity|].
  rewrite map_length, combine_length, seq_length. lia.
Qed.
Lemma pyslice_len_le {A} (l : list A) lo hi : (lo <= hi)%Z -> length (pyslice lo hi l) <= Z.to_nat (hi - lo).
Proof.
  intros H. unfold pyslice. rewrite firstn_length. set (n := Z.of_nat (length l)).
  assert (Hn : (0 <= n)%Z) by lia. clearbody n. apply Nat.min_le_iff. left. unfold clipz.
  destruct (lo <? 0)%Z eqn:E1, (hi <? 0)%Z eqn:E2; cbv zeta; lia.
Qed.
Lemma row_len_wslice {A} (rows : list (list A)) lo hi n : (forall r, In r rows -> length (pyslice lo hi r) <= n) -> row_len (wslice rows lo hi) <= n.
Proof. destruct rows as [|r rows]; cbn; [lia|]. intros H. apply H. left. reflexivity. Qed.

Section Sync.
Variable train : list (list C) -> result (list (list (list C)) * list R).
Variable find_fo : list (list C) -> result (list R).
Variables (rx ref : list (list C)) (os fl nt L : nat).
Hypothesis Hrx : rect rx L.
Hypothesis Hnt : 1 <= nt.
Hypothesis Hos : 1 <= os.
Let P := seq_len ref.
Let w := search_window ref os.
Let st := step ref os.
Hypothesis HL : (fl + 2 * P) * os <= L.
Hypothesis Hst : st <> 0.

Lemma search_len res l idx s : search_symbols find_fo rx ref os nt res l idx = Ok s ->
  length s <= 2 * P /\ (idx < 2 -> s = []).
Proof.
  unfold search_symbols. cbv zeta. fold st w.
  set (lo := (Z.of_nat (idx * st) - Z.of_nat w)%Z). set (hi := (Z.of_nat (idx * st) + Z.of_nat w)%Z).
  intros H. destruct (window_taps _ _ _ _) as [wx|]; [|discriminate]. cbn [bind] in H.
  destruct (core_apply_filter _ _ _ _ _ _) as [s0|] eqn:E0; [|discriminate]. cbn [bind] in H.
  destruct (find_fo s0) as [fo|]; [|discriminate]. cbn [bind] in H.
  destruct (comp_freq_offset s0 fo 1) as [s1|] eqn:E1; [|discriminate]. cbn [bind] in H.
  destruct (foc_row _ _ _ _ _ _ E1 H) as (r0 & Hr0 & Hlen). apply caf_row_len in E0.
  eapply Forall_forall in E0; [|eapply nth_error_In; exact Hr0]. rewrite Hlen, E0. split.
  - assert (Hrl : row_len (wslice rx lo hi) <= 2 * w).
    { apply row_len_wslice. intros r Hr. eapply Nat.le_trans; [apply pyslice_len_le; unfold lo, hi; lia|]. unfold lo, hi. lia. }
    set (k := row_len (wslice rx lo hi)) in *. clearbody k.
    assert (Hw : w = P * os) by reflexivity.
    assert ((Z.of_nat k - Z.of_nat nt + 1) / Z.of_nat os <= Z.of_nat (2 * P))%Z; [|lia].
    apply Z.div_le_upper_bound; [lia|]. nia.
  - intros Hi.
    assert (Hw : w = P * os) by reflexivity. assert (Hs : st = w / 2) by reflexivity.
    assert (Hrl : row_len (wslice rx lo hi) <= 0).
    { apply row_len_wslice. intros r Hr. assert (Hlr : length r = L) by (eapply Forall_forall in Hrx; eauto).
      unfold pyslice. rewrite firstn_length, Hlr.
      assert (st <= w) by (rewrite Hs; apply Nat.div_le_upper_bound; lia).
      assert (st < w). { rewrite Hs. apply Nat.div_lt; [|lia]. destruct w; [|lia]. cbn in Hs. lia. }
      assert (idx * st < w) by (destruct idx as [|[|]]; lia).
      assert (2 * w <= L) by nia.
      rewrite (ListX.clipz_pos _ hi) by (unfold hi; lia). unfold clipz. unfold lo, hi. cbv zeta.
      replace (Z.of_nat (idx * st) - Z.of_nat w <? 0)%Z with true by lia. lia. }
    destruct s as [|a s]; [reflexivity|]. exfalso. cbn [length] in Hlen.
    set (k := row_len (wslice rx lo hi)) in *. clearbody k.
    assert ((Z.of_nat k - Z.of_nat nt + 1) / Z.of_nat os <= 0)%Z by (apply Z.div_le_upper_bound; lia). lia.
Qed.
Lemma correlate_spec nf s cs : correlate rx ref nf s = Ok cs -> nf <> [] -> Forall (fun p => p < length rx) nf ->
  s <> [] /\ length cs = length rx /\ forall p, p < length rx -> exists d c, nth_error cs p = Some (d, c) /\
    (In p nf -> (0 < c)%R /\ (- (Z.of_nat (length (nth p ref [])) - 1) <= d <= Z.of_nat (length s) - 1)%Z) /\
    (~ In p nf -> d = 0%Z /\ c = 0%R).
Proof.
  unfold correlate. intros H Hne Hlt. pose proof (mapM_length _ _ _ H) as Hl. rewrite seq_length in Hl.
  assert (Hne' : s <> []).
  { intros ->. destruct nf as [|p nf]; [congruence|]. inversion Hlt as [|? ? Hp _]; subst.
    destruct (mapM_nth _ _ _ p p H) as (b & _ & Eb); [rewrite ListX.nth_error_seq by exact Hp; reflexivity|].
    cbn [existsb] in Eb. rewrite Nat.eqb_refl in Eb. cbn [orb] in Eb. destruct (getn ref p) as [r|]; [|discriminate]. cbn [bind] in Eb.
    rewrite c15_empty in Eb by (right; reflexivity). discriminate. }
  split; [exact Hne'|]. split; [exact Hl|]. intros p Hp.
  destruct (mapM_nth _ _ _ p p H) as ([d c] & Hn & Eb); [rewrite ListX.nth_error_seq by exact Hp; reflexivity|].
  exists d, c. split; [exact Hn|]. destruct (existsb (Nat.eqb p) nf) eqn:Ex.
  - apply existsb_exists in Ex as (x & Hx & E). apply Nat.eqb_eq in E. subst x. split; [|tauto]. intros _.
    destruct (getn ref p) as [r|] eqn:Er; [|discriminate]. cbn [bind] in Eb. apply getn_some in Er.
    assert (Hr : nth p ref [] = r) by (apply nth_error_nth; exact Er). rewrite Hr.
    destruct (find_sequence_offset_complex r s) as [[[[ix t] ii] ac]|] eqn:Ef; [|discriminate]. cbn [bind] in Eb. injection Eb as <- <-.
    assert (Hrn : r <> []) by (intros ->; rewrite c15_empty in Ef by (left; reflexivity); discriminate).
    destruct (c15 r s Hrn Hne') as [H0 H1].
    assert (Hcl : exists d0, corr r s d0 <> C0).
    { destruct (find_sequence_offset_spec r s Hrn Hne') as (d0 & _ & Hlag & Hmx & _).
      destruct (Ceq_dec (corr r s d0) C0) as [Z0|Z0]; [|eauto]. exfalso. rewrite H0 in Ef; [discriminate|].
      intros d. destruct (Z_le_dec (- (Z.of_nat (length s) - 1)) d) as [Ha|Ha]; [destruct (Z_le_dec d (Z.of_nat (length r) - 1)) as [Hb|Hb]|].
      - specialize (Hmx d (conj Ha Hb)). rewrite Z0 in Hmx. unfold Cabs in Hmx. rewrite Cnorm2_0, sqrt_0 in Hmx.
        apply Cnorm2_zero. pose proof (sqrt_pos (Cnorm2 (corr r s d))). apply sqrt_eq_0; [apply Cnorm2_nonneg|]. lra.
      - apply corr_out. unfold lag. lia.
      - apply corr_out. unfold lag. lia. }
    destruct Hcl as (d0 & Hd0). destruct (H1 d0 Hd0) as (ix' & ii' & acm' & E' & _ & Hlag & Hpos & _).
    rewrite E' in Ef. injection Ef as <- _ _ <-. unfold lag in Hlag. split; [exact Hpos|lia].
  - injection Eb as <- <-. split; [|auto]. intros Hin. exfalso.
    assert (existsb (Nat.eqb p) nf = true) by (apply existsb_exists; exists p; rewrite Nat.eqb_refl; auto). congruence.
Qed.
Lemma filter_neq_perm p nf : NoDup nf -> In p nf -> Permutation nf (p :: filter (fun q => negb (q =? p)) nf).
Proof.
  induction nf as [|a nf IH]; [intros _ []|]. intros Hnd Hin. inversion Hnd as [|? ? Ha Hnd']; subst. cbn [filter].
  destruct (a =? p) eqn:E; cbn [negb].
  - apply Nat.eqb_eq in E. subst a. constructor.
    replace (filter (fun q => negb (q =? p)) nf) with nf; [reflexivity|].
    clear - Ha. induction nf as [|b nf IH]; [reflexivity|]. cbn. destruct (b =? p) eqn:E; cbn.
    + apply Nat.eqb_eq in E. subst. exfalso. apply Ha. left. reflexivity.
    + f_equal. apply IH. intros H. apply Ha. right. exact H.
  - destruct Hin as [->|Hin]; [rewrite Nat.eqb_refl in E; discriminate|].
    rewrite (IH Hnd' Hin) at 1. apply perm_swap.
Qed.
Lemma filter_neq_len p nf : NoDup nf -> In p nf -> length nf = S (length (filter (fun q => negb (q =? p)) nf)).
Proof. intros H1 H2. now rewrite (Permutation_length (filter_neq_perm p nf H1 H2)) at 1. Qed.

Hypothesis Href : rect ref P.
Lemma match_spec ns res : length res = ns - 2 -> 1 <= ns -> forall ls nf ms, match_modes find_fo rx ref os nt ns res ls nf = Ok ms ->
  NoDup nf -> Forall (fun p => p < length rx) nf -> length ls = length nf ->
  Permutation (map (fun m => fst (fst m)) ms) nf /\ length ms = length ls /\
  Forall (fun m => (Z.of_nat (2 * st) - Z.of_nat w - Z.of_nat os * (Z.of_nat P - 1) <= snd (fst m) <=
                   Z.of_nat ((ns - 1) * st) + Z.of_nat os * (2 * Z.of_nat P - 1) - Z.of_nat w)%Z) ms.
Proof.
  intros Hres Hns. induction ls as [|l ls IH]; intros nf ms H Hnd Hlt Hlen; cbn [match_modes] in H.
  - injection H as <-. destruct nf; [|discriminate]. split; [constructor|]. split; [reflexivity|constructor].
  - destruct (sub_vars ns res l) as [vars|] eqn:Ev; [|discriminate]. cbn [bind] in H.
    destruct (argmin vars) as [idx|] eqn:Ei; [|discriminate]. cbn [bind] in H.
    destruct (search_symbols find_fo rx ref os nt res l idx) as [s|] eqn:Es; [|discriminate]. cbn [bind] in H.
    destruct (correlate rx ref nf s) as [cs|] eqn:Ec; [|discriminate]. cbn [bind] in H.
    destruct (argmax (map snd cs)) as [p|] eqn:Ep; [|discriminate]. cbn [bind] in H.
    destruct (getn cs p) as [[d c]|] eqn:Eg; [|discriminate]. cbn [bind fst snd] in H.
    destruct (match_modes find_fo rx ref os nt ns res ls _) as [r|] eqn:Er; [|discriminate]. cbn [bind] in H. injection H as <-.
    assert (Hnf : nf <> []) by (intros ->; discriminate).
    destruct (correlate_spec nf s cs Ec Hnf Hlt) as (Hsne & Hcl & Hcs).
    destruct (search_len res l idx s Es) as (Hsl & Hs2).
    assert (Hidx2 : 2 <= idx) by (destruct (le_lt_dec 2 idx); [assumption|exfalso; apply Hsne, Hs2; assumption]).
    assert (Hidx : idx <= ns - 1).
    { apply argmin_spec in Ei as (dd & Hd & _). assert (idx < length vars) by (apply nth_error_Some; congruence).
      unfold sub_vars in Ev. destruct (mapM _ res) as [vs|] eqn:Evs; [|discriminate]. cbn [bind] in Ev. injection Ev as <-.
      apply mapM_length in Evs. rewrite app_length, repeat_length, Evs, Hres in H. destruct ns as [|[|ns]]; lia. }
    apply getn_some in Eg.
    assert (Hp : p < length rx) by (rewrite <- Hcl; apply nth_error_Some; congruence).
    destruct (Hcs p Hp) as (d' & c' & Hn' & HinP & HoutP). rewrite Eg in Hn'. injection Hn' as <- <-.
    assert (Hpin : In p nf).
    { destruct (in_dec Nat.eq_dec p nf) as [Hi|Hi]; [exact Hi|]. exfalso. destruct (HoutP Hi) as [_ Hc0].
      destruct nf as [|p0 nf']; [congruence|]. assert (Hp0 : p0 < length rx) by (inversion Hlt; assumption).
      destruct (Hcs p0 Hp0) as (d0 & c0 & Hn0 & HinP0 & _). destruct (HinP0 ltac:(left; reflexivity)) as [Hc0' _].
      destruct (argmax_spec _ _ Ep) as (v & Hv & Hmx & _). rewrite nth_error_map, Eg in Hv. cbn in Hv. injection Hv as <-.
      specialize (Hmx p0 c0). rewrite nth_error_map, Hn0 in Hmx. specialize (Hmx eq_refl). lra. }
    destruct (HinP Hpin) as [_ Hd].
    assert (Hperm := filter_neq_perm p nf Hnd Hpin).
    destruct (IH _ _ Er) as (HP & HLn & HF).
    + apply NoDup_filter. exact Hnd.
    + apply Forall_forall. intros q Hq. apply filter_In in Hq as [Hq _]. eapply Forall_forall in Hlt; eauto.
    + pose proof (filter_neq_len p nf Hnd Hpin). cbn in Hlen. lia.
    + split; [cbn [map fst]; rewrite HP; symmetry; exact Hperm|]. split; [cbn; lia|].
      constructor; [|exact HF]. cbn [fst snd].
      assert (HP' : length (nth p ref []) <= P).
      { destruct (nth_in_or_default p ref []) as [Hi|Hi]; [eapply Forall_forall in Href; [|exact Hi]; lia|rewrite Hi; cbn; lia]. }
      fold st w. nia.
Qed.
End Sync.

Lemma frame_sync_ok train find_fo rx ref os fl nt L meth shifts order ok : rect rx L -> rect ref (seq_len ref) -> 1 <= nt -> 1 <= os ->
  rx <> [] -> frame_sync train find_fo rx ref os fl nt meth = Ok (shifts, order, ok) ->
  Permutation order (seq 0 (length rx)) /\ length shifts = length rx /\
  let P := Z.of_nat (seq_len ref) in
  Forall (fun s => (- ((P - 1) * Z.of_nat os) - 1 <= s <= (Z.of_nat fl + P - 1) * Z.of_nat os)%Z) shifts /\
  (fl + 2 * seq_len ref) * os <= L.
Proof.
  intros Hrx Href Hnt Hos Hne H. unfold frame_sync in H. rewrite (rect_row_len rx L Hne Hrx) in H.
  destruct ((fl + 2 * seq_len ref) * os <=? L) eqn:EL; [|discriminate]. cbn [negb] in H. apply Nat.leb_le in EL.
  destruct (match meth with Some m => _ | None => _ end); [discriminate|].
  destruct (step ref os =? 0) eqn:Est; [discriminate|]. apply Nat.eqb_neq in Est.
  set (ns := fl * os / step ref os + 1) in *.
  destruct (search train rx ref os ns) as [res|] eqn:Es; [|discriminate]. cbn [bind] in H.
  unfold nmodes in H. destruct (match_modes _ _ _ _ _ _ _ _ _) as [ms|] eqn:Em; [|discriminate]. cbn [bind] in H. injection H as <- <- <-.
  assert (Hres : length res = ns - 2) by (unfold search in Es; apply mapM_length in Es; rewrite seq_length in Es; exact Es).
  destruct (match_spec train find_fo rx ref os fl nt L Hrx Hnt Hos EL Est Href ns res Hres ltac:(unfold ns; lia) _ _ _ Em) as (HP & HLn & HF).
  - apply seq_NoDup.
  - apply Forall_forall. intros p Hp. apply in_seq in Hp. lia.
  - reflexivity.
  - split; [exact HP|]. split; [rewrite map_length, HLn, seq_length; reflexivity|]. cbv zeta. split; [|exact EL].
    apply Forall_map. eapply Forall_impl; [|exact HF]. intros m Hm. cbn beta in Hm.
    assert (Hw : search_window ref os = seq_len ref * os) by reflexivity.
    assert (Hs2 : seq_len ref * os - 1 <= 2 * step ref os).
    { unfold step. rewrite Hw. pose proof (Nat.div_mod_eq (seq_len ref * os) 2). pose proof (Nat.mod_upper_bound (seq_len ref * os) 2). lia. }
    assert (Hns : (ns - 1) * step ref os <= fl * os).
    { unfold ns. rewrite Nat.add_sub, Nat.mul_comm. apply Nat.mul_div_le. exact Est. }
    set (sf := snd (fst m)) in *. clearbody sf. set (s1 := (ns - 1) * step ref os) in *. clearbody s1 ns. rewrite Hw in Hm. nia.
Qed.
