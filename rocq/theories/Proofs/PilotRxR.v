From Coq Require Import String List ZArith Arith Bool Reals Lia Lra ZifyBool ZifyNat Permutation.
From Verif Require Import Common.Py Common.ListX Common.Cplx Common.SumX Model.Decision Model.Sync Model.Pilots Model.Equaliser Model.Phase
  Model.PilotRx Spec.Seq Spec.Equal Spec.PilotSpec Proofs.DecisionP Proofs.CorrP Proofs.SyncQ Proofs.PilotP Proofs.PilotRxP Proofs.PilotRxQ.
Import ListNotations.
Open Scope list_scope.

Definition eff_method (m : option string) := match m with None => Some "cma"%string | m => m end.
Lemma fancy_map {A} (l : list A) idx d out : fancy_get idx l = Ok out -> out = map (fun i => nth i l d) idx /\ Forall (fun i => i < length l) idx.
Proof.
  revert out. induction idx as [|i idx IH]; intros out H; unfold fancy_get in *; cbn in H; [injection H as <-; split; [reflexivity|constructor]|].
  unfold getn in H at 1. destruct (nth_error l i) as [a|] eqn:E; [|discriminate]. cbn in H.
  destruct (mapM (getn l) idx) as [o|] eqn:Eo; [|discriminate]. cbn in H. injection H as <-.
  destruct (IH o eq_refl) as [-> HF]. cbn [map]. rewrite (nth_error_nth _ _ d E). split; [reflexivity|].
  constructor; [apply nth_error_Some; congruence|exact HF].
Qed.
Lemma sync2frame_ok train find_fo rx ref os fl nt L meth rows sh ok : rect rx L -> rect ref (seq_len ref) -> 1 <= nt -> 1 <= os ->
  rx <> [] -> seq_len ref <= fl -> sync2frame train find_fo rx ref os fl nt meth = Ok (rows, sh, ok) ->
  exists shifts order, frame_sync train find_fo rx ref os fl nt (eff_method meth) = Ok (shifts, order, ok) /\
    Permutation order (seq 0 (length rx)) /\ rows = map (fun l => nth l rx []) order /\
    length sh = length rx /\ Forall (fun s => (0 <= s /\ s + Z.of_nat (seq_len ref * os) <= Z.of_nat L)%Z) sh.
Proof.
  intros Hrx Href Hnt Hos Hne Hfl H. unfold sync2frame in H. fold (eff_method meth) in H.
  destruct (frame_sync _ _ _ _ _ _ _ _) as [[[shifts order] ok']|] eqn:E; [|discriminate]. cbn [bind] in H.
  destruct (fancy_get order rx) as [rows'|] eqn:Er; [|discriminate]. cbn [bind] in H.
  destruct (fancy_get order (map _ shifts)) as [sh'|] eqn:Es; [|discriminate]. cbn [bind] in H. injection H as <- <- <-.
  destruct (frame_sync_ok _ _ _ _ _ _ _ _ _ _ _ _ Hrx Href Hnt Hos Hne E) as (HP & HL & HF & HLL).
  exists shifts, order. split; [reflexivity|]. split; [exact HP|].
  apply (fancy_map _ _ []) in Er as [-> _]. split; [reflexivity|].
  pose proof (mapM_length _ _ _ Es) as Hsl. rewrite (Permutation_length HP), seq_length in Hsl. split; [exact Hsl|].
  apply (fancy_map _ _ 0%Z) in Es as [-> Hlt]. apply Forall_forall. intros s Hs. apply in_map_iff in Hs as (i & <- & Hi).
  eapply Forall_forall in Hlt; [|exact Hi]. rewrite map_length in Hlt.
  set (g := fun s => if (s <? 0)%Z then (s + Z.of_nat (fl * os))%Z else s).
  assert (Hnth : nth i (map g shifts) 0%Z = g (nth i shifts 0%Z)).
  { rewrite (nth_indep _ 0%Z (g 0%Z)) by (rewrite map_length; exact Hlt). apply map_nth. }
  rewrite Hnth. assert (HFi := nth_In shifts 0%Z Hlt). eapply Forall_forall in HF; [|exact HFi].
  set (x := nth i shifts 0%Z) in *. clearbody x. unfold g. destruct (x <? 0)%Z eqn:Ex; nia.
Qed.
Lemma perm_rows {A} (rx : list (list A)) order : Permutation order (seq 0 (length rx)) -> Permutation (map (fun l => nth l rx []) order) rx.
Proof.
  intros H. rewrite H. assert (E : map (fun l => nth l rx []) (seq 0 (length rx)) = rx); [|rewrite E; reflexivity].
  apply nth_error_ext_lt; [rewrite map_length, seq_length; reflexivity|]. intros i Hi. rewrite map_length, seq_length in Hi.
  rewrite nth_error_map, ListX.nth_error_seq by exact Hi. cbn. symmetry. apply nth_error_nth'. exact Hi.
Qed.

(** ** a found pilot sequence *)
Section Finds.
Variable find_fo : list (list C) -> result (list R).
Variables (rx ref : list (list C)) (os nt P : nat).
Hypothesis HP : 1 <= P.
Hypothesis Hrl : length rx <= length ref.
Hypothesis Hu : Forall (fun r => length r = P /\ unit_modulus r) ref.
Variables (pil : nat -> nat) (pos : nat -> Z) (qrt : nat -> nat) (idx : nat -> nat) (sy : nat -> list C).
Variable ns : nat.
Variable res : list (list (list (list C)) * list R).
Definition mode_has (l : nat) : Prop :=
  (exists vars, sub_vars ns res l = Ok vars /\ argmin vars = Ok (idx l)) /\
  search_symbols find_fo rx ref os nt res l (idx l) = Ok (sy l) /\
  sy l <> [] /\ unit_modulus (sy l) /\ qrt l < 4 /\ pil l < length rx /\
  found_once (sy l) (nth (pil l) ref []) (pos l) (qrt l) /\
  (forall p, p < length rx -> p <> pil l -> absent (sy l) (nth p ref [])).

Lemma ref_row p : p < length rx -> nth_error ref p = Some (nth p ref []) /\ length (nth p ref []) = P /\ unit_modulus (nth p ref []) /\ nth p ref [] <> [].
Proof.
  intros Hp. assert (Hi : nth_error ref p = Some (nth p ref [])) by (apply nth_error_nth'; lia). split; [exact Hi|].
  eapply Forall_forall in Hu; [|eapply nth_error_In; exact Hi]. destruct Hu as [H1 H2]. split; [exact H1|]. split; [exact H2|].
  intros E. rewrite E in H1. cbn in H1. lia.
Qed.
Lemma correlate_finds l nf : mode_has l -> In (pil l) nf ->
  exists cs, correlate rx ref nf (sy l) = Ok cs /\ argmax (map snd cs) = Ok (pil l) /\ getn cs (pil l) = Ok (pos l, INR P).
Proof.
  intros (_ & _ & Hsn & Us & Hq & Hpl & Hf & Ha) Hin. unfold correlate, nmodes.
  set (f := fun p => if existsb (Nat.eqb p) nf then _ else _).
  assert (Hper : forall p, p < length rx -> exists d c, f p = Ok (d, c) /\ (p = pil l -> d = pos l /\ c = INR P) /\ (p <> pil l -> (c < INR P)%R)).
  { intros p Hp. destruct (ref_row p Hp) as (Hn & Hlr & Ur & Hrn). unfold f.
    destruct (existsb (Nat.eqb p) nf) eqn:Ex.
    - unfold getn. rewrite Hn. cbn [bind]. destruct (Nat.eq_dec p (pil l)) as [->|Hne].
      + destruct (pilot_found _ _ Hrn Hsn Ur Us (pos l) (qrt l) Hq Hf) as (t & ii & E). rewrite E. cbn [bind].
        exists (pos l), (INR P). rewrite Hlr, Z.opp_involutive. split; [reflexivity|]. split; [auto|congruence].
      + destruct (pilot_absent _ _ Hrn Hsn Ur Us (Ha p Hp Hne)) as (ix & t & ii & acm & E & Hlt). rewrite E. cbn [bind].
        exists (- ix)%Z, acm. rewrite <- Hlr. split; [reflexivity|]. split; [congruence|auto].
    - exists 0%Z, 0%R. split; [reflexivity|]. split.
      + intros ->. exfalso. assert (existsb (Nat.eqb (pil l)) nf = true); [|congruence]. apply existsb_exists. exists (pil l). rewrite Nat.eqb_refl. auto.
      + intros _. apply lt_0_INR. lia. }
  assert (Hall : exists cs, mapM f (seq 0 (length rx)) = Ok cs).
  { clear - Hper. assert (H : forall n a, a + n <= length rx -> exists cs, mapM f (seq a n) = Ok cs).
    { induction n as [|n IH]; intros a Ha; [exists []; reflexivity|]. destruct (Hper a ltac:(lia)) as (d & c & E & _).
      destruct (IH (S a) ltac:(lia)) as (cs & Ec). cbn [seq mapM]. rewrite E. cbn [bind]. rewrite Ec. cbn [bind]. eauto. }
    apply H. lia. }
  destruct Hall as (cs & Ec). exists cs. split; [exact Ec|].
  assert (Hnth : forall p, p < length rx -> exists d c, nth_error cs p = Some (d, c) /\ (p = pil l -> d = pos l /\ c = INR P) /\ (p <> pil l -> (c < INR P)%R)).
  { intros p Hp. destruct (Hper p Hp) as (d & c & E & H1 & H2). destruct (mapM_nth _ _ _ p p Ec) as (b & Hb & Eb); [rewrite ListX.nth_error_seq by exact Hp; reflexivity|].
    rewrite E in Eb. injection Eb as <-. eauto. }
  destruct (Hnth _ Hpl) as (d & c & En & Hpc & _). destruct (Hpc eq_refl) as [-> ->].
  assert (Lc : length cs = length rx) by (apply mapM_length in Ec; rewrite seq_length in Ec; exact Ec).
  split; [|unfold getn; rewrite En; reflexivity].
  destruct (argmin_ok (map Ropp (map snd cs))) as (i & Hi); [destruct cs; [destruct (pil l); discriminate|discriminate]|].
  change (argmax (map snd cs) = Ok i) in Hi. rewrite Hi. destruct (argmax_spec _ _ Hi) as (v & Hv & Hmx & _).
  rewrite nth_error_map in Hv. destruct (nth_error cs i) as [[di ci]|] eqn:Eci; [|discriminate]. injection Hv as <-.
  assert (Hil : i < length rx) by (rewrite <- Lc; apply nth_error_Some; congruence).
  destruct (Nat.eq_dec i (pil l)) as [->|Hne]; [reflexivity|]. exfalso.
  destruct (Hnth i Hil) as (d' & c' & En' & _ & Hlt). rewrite Eci in En'. injection En' as <- <-. specialize (Hlt Hne).
  specialize (Hmx (pil l) (INR P)). rewrite nth_error_map, En in Hmx. specialize (Hmx eq_refl). cbn [snd] in Hmx. lra.
Qed.
Lemma match_finds ls : forall nf, (forall l, In l ls -> mode_has l /\ In (pil l) nf) -> NoDup (map pil ls) ->
  match_modes find_fo rx ref os nt ns res ls nf =
  Ok (map (fun l => (pil l, (Z.of_nat (idx l * step ref os) + Z.of_nat os * pos l - Z.of_nat (search_window ref os))%Z, 120 <=? P)) ls).
Proof.
  induction ls as [|l ls IH]; intros nf Hls Hnd; [reflexivity|]. cbn [match_modes map].
  destruct (Hls l ltac:(left; reflexivity)) as [Hm Hin]. pose proof Hm as ((vars & Ev & Ei) & Es & _).
  rewrite Ev. cbn [bind]. rewrite Ei. cbn [bind]. rewrite Es. cbn [bind].
  destruct (correlate_finds l nf Hm Hin) as (cs & Ec & Ea & Eg). rewrite Ec. cbn [bind]. rewrite Ea. cbn [bind]. rewrite Eg. cbn [bind fst snd].
  cbn [map] in Hnd. inversion Hnd as [|? ? Hni Hnd']; subst.
  rewrite IH.
  - cbn [bind]. replace (if Rlt_dec (INR P) 120 then false else true) with (120 <=? P); [reflexivity|].
    replace 120%R with (INR 120) by (cbn [INR]; lra).
    destruct (Rlt_dec (INR P) (INR 120)) as [Hl|Hl].
    + apply INR_lt in Hl. apply Nat.leb_gt. exact Hl.
    + apply Rnot_lt_le, INR_le in Hl. apply Nat.leb_le. exact Hl.
  - intros l' Hl'. destruct (Hls l' ltac:(right; exact Hl')) as [Hm' Hin']. split; [exact Hm'|]. apply filter_In. split; [exact Hin'|].
    apply negb_true_iff, Nat.eqb_neq. intros E. apply Hni. rewrite <- E. apply in_map. exact Hl'.
  - exact Hnd'.
Qed.
End Finds.

Lemma frame_sync_finds train find_fo rx ref os fl nt meth L P pil pos qrt idx sy res :
  rect rx L -> rx <> [] -> 1 <= P -> 1 <= os -> P * os <> 1 -> (fl + 2 * P) * os <= L -> seq_len ref = P ->
  length rx <= length ref -> Forall (fun r => length r = P /\ unit_modulus r) ref ->
  match meth with Some m => memb m REAL_VALUED || memb m DATA_AIDED | None => false end = false ->
  let ns := fl * os / (P * os / 2) + 1 in
  search train rx ref os ns = Ok res ->
  (forall l, l < length rx -> mode_has find_fo rx ref os nt pil pos qrt idx sy ns res l) ->
  NoDup (map pil (seq 0 (length rx))) ->
  frame_sync train find_fo rx ref os fl nt meth =
  Ok (map (fun l => Z.of_nat (idx l * (P * os / 2)) + Z.of_nat os * pos l - Z.of_nat (P * os))%Z (seq 0 (length rx)),
      map pil (seq 0 (length rx)), 120 <=? P).
Proof.
  intros Hrx Hne HP Hos Hp1 HL Hsl Hrl Hu Hm ns Hs Hmodes Hnd. unfold frame_sync.
  rewrite (rect_row_len rx L Hne Hrx), Hsl. replace ((fl + 2 * P) * os <=? L) with true by (symmetry; apply Nat.leb_le; exact HL). cbn [negb].
  rewrite Hm.
  assert (Hst : step ref os = P * os / 2) by (unfold step, search_window; rewrite Hsl; reflexivity).
  assert (Hst0 : P * os / 2 <> 0) by (assert (1 <= P * os / 2); [apply Nat.div_le_lower_bound; nia|lia]).
  rewrite Hst. replace (P * os / 2 =? 0) with false by (symmetry; apply Nat.eqb_neq; exact Hst0).
  fold ns. rewrite Hs. cbn [bind]. unfold nmodes.
  rewrite (match_finds find_fo rx ref os nt P HP Hrl Hu pil pos qrt idx sy ns res).
  - cbn [bind]. rewrite !map_map. cbn [fst snd]. rewrite Hst.
    replace (search_window ref os) with (P * os) by (unfold search_window; rewrite Hsl; reflexivity).
    assert (Hfb : forall l : list nat, l <> [] -> forallb (fun x => snd x)
       (map (fun l0 => (pil l0, (Z.of_nat (idx l0 * (P * os / 2)) + Z.of_nat os * pos l0 - Z.of_nat (P * os))%Z, 120 <=? P)) l) = (120 <=? P)).
    { induction l as [|a l IH]; [congruence|]. intros _. cbn [map forallb snd]. destruct l as [|b l]; [cbn; apply andb_true_r|].
      rewrite IH by discriminate. apply andb_diag. }
    rewrite Hfb; [reflexivity|]. destruct rx; [congruence|discriminate].
  - intros l Hl. apply in_seq in Hl. split; [apply Hmodes; lia|]. apply in_seq. assert (pil l < length rx); [|lia].
    apply (Hmodes l ltac:(lia)).
  - exact Hnd.
Qed.

(** ** arrangement of the modes *)
Lemma align_two {A} (rx : list (list A)) order : length rx <= 2 -> Permutation order (seq 0 (length rx)) ->
  forall l p, nth_error order l = Some p -> nth_error (map (fun k => nth k rx []) order) p = nth_error rx l.
Proof.
  intros Hl HP l p Hp. assert (Hlen := Permutation_length HP). rewrite seq_length in Hlen.
  assert (HN : NoDup order) by (eapply Permutation_NoDup; [symmetry; exact HP|apply seq_NoDup]).
  assert (HI : forall x, In x order -> x < length rx) by (intros x Hx; apply (Permutation_in _ HP), in_seq in Hx; lia).
  destruct rx as [|a [|b [|]]]; cbn [length] in *; try lia.
  - destruct order; [destruct l; discriminate|discriminate].
  - destruct order as [|o [|]]; try discriminate. destruct l as [|[|]]; try discriminate. injection Hp as <-.
    assert (o = 0) by (specialize (HI o ltac:(left; reflexivity)); lia). subst. reflexivity.
  - destruct order as [|o [|o' [|]]]; try discriminate. inversion HN as [|? ? Hni _]; subst.
    assert (o < 2) by (apply HI; left; reflexivity). assert (o' < 2) by (apply HI; right; left; reflexivity).
    assert (o <> o') by (intros ->; apply Hni; left; reflexivity).
    assert (Hc : (o = 0 /\ o' = 1) \/ (o = 1 /\ o' = 0)) by lia.
    destruct Hc as [[-> ->]|[-> ->]]; destruct l as [|[|[|]]]; try discriminate; injection Hp as <-; reflexivity.
Qed.
