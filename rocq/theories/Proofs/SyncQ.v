From Coq Require Import List ZArith Bool Lia Reals Lra Arith ZifyBool ZifyNat.
From Verif Require Import Common.Py Common.ListX Common.Cplx Common.SumX Model.Decision Model.Sync Spec.Seq
  Proofs.DecisionP Proofs.AdjustP Proofs.CorrP Proofs.SyncP.
Import ListNotations.

(** ** C16 *)
Lemma best_mode_spec tx r : forall idxx best acm out, best_mode tx r idxx best acm = Ok out ->
  (forall i, In i idxx -> exists txi s, nth_error tx i = Some txi /\ sync_and_adjust txi r AdjTx = Ok s) /\
  exists acm', (acm <= acm')%R /\
  (forall i' txi' s', In i' idxx -> nth_error tx i' = Some txi' -> sync_and_adjust txi' r AdjTx = Ok s' -> (snd s' <= acm')%R) /\
  ((out = best /\ acm' = acm) \/
   exists i txi s, In i idxx /\ nth_error tx i = Some txi /\ sync_and_adjust txi r AdjTx = Ok s /\ out = Some (i, fst s) /\ acm' = snd s).
Proof.
  induction idxx as [|i idxx IH]; intros best acm out E.
  - cbn in E. injection E as ->. split; [intros i []|]. exists acm. split; [lra|]. split; [intros i' txi' s' []|]. now left.
  - cbn [best_mode] in E. unfold getn in E. destruct (nth_error tx i) as [txi|] eqn:Ei; [|discriminate]. cbn [bind] in E.
    destruct (sync_and_adjust txi r AdjTx) as [s|e] eqn:Es; [|discriminate]. cbn [bind] in E.
    assert (Hs : forall txi' s', nth_error tx i = Some txi' -> sync_and_adjust txi' r AdjTx = Ok s' -> s' = s).
    { intros txi' s' H1 H2. congruence. }
    destruct (Rlt_dec acm (snd s)) as [Hlt|Hge].
    + destruct (IH _ _ _ E) as (H1 & acm' & Hle & Hall & Hc). split; [intros j [<-|Hj]; [eauto|now apply H1]|].
      exists acm'. split; [lra|]. split.
      * intros i' txi' s' [<-|Hi'] Ei' Es'; [rewrite (Hs _ _ Ei' Es'); exact Hle|eauto].
      * right. destruct Hc as [[-> ->]|(j & txj & sj & Hj & H)].
        { exists i, txi, s. repeat split; try assumption. now left. }
        { exists j, txj, sj. split; [now right|exact H]. }
    + destruct (IH _ _ _ E) as (H1 & acm' & Hle & Hall & Hc). split; [intros j [<-|Hj]; [eauto|now apply H1]|].
      exists acm'. split; [lra|]. split.
      * intros i' txi' s' [<-|Hi'] Ei' Es'; [rewrite (Hs _ _ Ei' Es'); lra|eauto].
      * destruct Hc as [Hc|(j & txj & sj & Hj & H)]; [now left|]. right. exists j, txj, sj. split; [now right|exact H].
Qed.

Lemma list_remove_in i l : NoDup l -> forall x, In x (list_remove i l) <-> In x l /\ x <> i.
Proof.
  induction 1 as [|a l Ha Hl IH]; intros x; cbn [list_remove].
  - cbn. tauto.
  - destruct (Nat.eqb_spec a i) as [->|Hne].
    + cbn. split; [intros H; split; [now right|intros ->; contradiction]|]. intros [[<-|H] H2]; [congruence|exact H].
    + cbn. rewrite IH. intuition congruence.
Qed.
Lemma list_remove_nodup i l : NoDup l -> NoDup (list_remove i l).
Proof.
  induction 1 as [|a l Ha Hl IH]; cbn [list_remove]; [constructor|].
  destruct (Nat.eqb_spec a i) as [->|Hne]; [exact Hl|]. constructor; [|exact IH].
  rewrite list_remove_in by assumption. tauto.
Qed.

(** one received mode is paired with the best transmitted mode outside [used] *)
Definition best_free (tx : list (list C)) (free : nat -> Prop) (r : list C) (i : nat) (p : list C * list C) : Prop :=
  exists txi acm, nth_error tx i = Some txi /\ sync_and_adjust txi r AdjTx = Ok (p, acm) /\
    forall i' txi', free i' -> nth_error tx i' = Some txi' ->
      exists p' acm', sync_and_adjust txi' r AdjTx = Ok (p', acm') /\ (acm' <= acm)%R.

Lemma sync_modes_spec tx : forall rx idxx first ps, sync_modes tx rx idxx first = Ok ps -> NoDup idxx ->
  length ps = length rx /\ NoDup (map fst ps) /\ (forall i, In i (map fst ps) -> In i idxx) /\
  forall j i p, nth_error ps j = Some (i, p) -> exists r, nth_error rx j = Some r /\
    best_free tx (fun k => In k idxx /\ ~ In k (firstn j (map fst ps))) r i p.
Proof.
  induction rx as [|r rx IH]; intros idxx first ps E Hnd.
  - cbn in E. injection E as <-. repeat split; try constructor; cbn; try tauto. intros [|j] i p H; discriminate.
  - cbn [sync_modes] in E. destruct (best_mode tx r idxx None (-100)) as [[[i p]|]|] eqn:Eb; cbn [bind] in E;
      [|destruct first; discriminate|discriminate].
    destruct (sync_modes tx rx (list_remove i idxx) false) as [rest|e] eqn:Er; cbn [bind] in E; [|discriminate].
    injection E as <-.
    destruct (best_mode_spec _ _ _ _ _ _ Eb) as (Hok & acm' & _ & Hall & Hc).
    destruct Hc as [[H _]|(i0 & txi & s & Hi & Ei & Es & Eo & ->)]; [discriminate|]. injection Eo as <- ->.
    destruct (IH _ _ _ Er (list_remove_nodup i idxx Hnd)) as (Hlen & Hnd' & Hincl & Hbest).
    split; [cbn; lia|]. split; [|split].
    + cbn. constructor; [|exact Hnd']. intros H. apply Hincl in H. rewrite list_remove_in in H by assumption. tauto.
    + cbn. intros k [<-|Hk]; [exact Hi|]. apply Hincl in Hk. rewrite list_remove_in in Hk by assumption. tauto.
    + intros [|j] k p E; cbn in E.
      * injection E as <- <-. exists r. split; [reflexivity|]. destruct s as [pp acm]. exists txi, acm.
        split; [exact Ei|]. split; [exact Es|]. intros i' txi' [Hi' _] Ei'.
        destruct (Hok i' Hi') as (tx0 & s0 & E0 & Es0). assert (tx0 = txi') by congruence. subst tx0.
        destruct s0 as [p' a']. exists p', a'. split; [exact Es0|]. exact (Hall _ _ _ Hi' Ei' Es0).
      * destruct (Hbest j k p E) as (rj & Erj & txk & acm & Ek & Esk & Hf). exists rj. split; [exact Erj|].
        exists txk, acm. split; [exact Ek|]. split; [exact Esk|]. intros i' txi' [Hi' Hni] Ei'.
        apply (Hf i' txi'); [|exact Ei']. cbn in Hni. rewrite list_remove_in by assumption.
        split; [split; [exact Hi'|]|]; intros H; apply Hni; [left; congruence|now right].
Qed.

Lemma c16 tx rx ts rs : signal_sync_and_adjust tx rx false = Ok (ts, rs) ->
  exists modes, length modes = length rx /\ length ts = length rx /\ length rs = length rx /\ NoDup modes /\
    forall j i, nth_error modes j = Some i -> exists r t r', nth_error rx j = Some r /\ nth_error ts j = Some t /\ nth_error rs j = Some r' /\
      best_free tx (fun k => k < length tx /\ ~ In k (firstn j modes)) r i (t, r').
Proof.
  intros E. unfold signal_sync_and_adjust in E.
  destruct (sync_modes tx rx (seq 0 (Nat.max (length tx) (length rx))) true) as [ps|] eqn:Es; [|discriminate].
  cbn [bind] in E. injection E as <- <-.
  destruct (sync_modes_spec tx rx _ _ _ Es (seq_NoDup _ _)) as (Hl & Hnd & _ & Hb).
  exists (map fst ps). rewrite !map_length. repeat split; try assumption.
  intros j i Hj. rewrite nth_error_map in Hj. destruct (nth_error ps j) as [[i0 p]|] eqn:Ep; [|discriminate].
  cbn in Hj. injection Hj as ->. destruct (Hb j i p Ep) as (r & Er & txi & acm & Ei & Esy & Hf).
  exists r, (fst p), (snd p). rewrite !nth_error_map, Ep. repeat split; try assumption.
  exists txi, acm. split; [exact Ei|]. split; [rewrite Esy; now destruct p|].
  intros i' txi' [H1 H2] Ei'. apply (Hf i' txi'); [|exact Ei']. split; [|exact H2]. apply in_seq. lia.
Qed.

Lemma c16_fails tx rx : length tx < length rx -> exists e, signal_sync_and_adjust tx rx false = Err e.
Proof.
  intros H. unfold signal_sync_and_adjust. destruct rx as [|r rx]; [cbn in H; lia|]. cbn [sync_modes].
  destruct (best_mode tx r (seq 0 (Nat.max (length tx) (length (r :: rx)))) None (-100)) as [b|e] eqn:E; [|cbn; eauto].
  exfalso. destruct (best_mode_spec _ _ _ _ _ _ E) as (Hok & _).
  destruct (Hok (length tx)) as (txi & s & Hn & _); [apply in_seq; lia|].
  apply nth_error_Some_lt in Hn. lia.
Qed.

(** ** C17 *)
Lemma rect_row_len {A} (m : list (list A)) n : m <> [] -> rect m n -> row_len m = n.
Proof. intros Hm H. destruct m; [congruence|]. inversion H; subst. reflexivity. Qed.
Lemma rect_nth {A} (m : list (list A)) n i r : rect m n -> nth_error m i = Some r -> length r = n.
Proof. intros H E. unfold rect in H. rewrite Forall_forall in H. apply H. eapply nth_error_In; eassumption. Qed.

Lemma c17_row {A} (t r : list A) m : t <> [] -> m = (if length r <? length t then Truncate else Extend) ->
  exists t', adjust_data_length t r m 0 = Ok (t', r) /\ length t' = length r /\
    forall k, k < length r -> nth_error t' k = nth_error t (k mod length t).
Proof.
  intros Ht ->. assert (HL : 0 < length t) by (destruct t; [congruence|cbn; lia]).
  destruct (Nat.ltb_spec (length r) (length t)) as [H|H].
  - unfold adjust_data_length. destruct (Nat.ltb_spec (length r) (length t)); [|lia].
    eexists. split; [reflexivity|]. split; [rewrite firstn_length; lia|]. intros k Hk.
    rewrite nth_error_firstn_lt by assumption. now rewrite Nat.mod_small by lia.
  - unfold adjust_data_length. destruct (Nat.ltb_spec (length r) (length t)); [lia|].
    destruct (Nat.ltb_spec (length t) (length r)) as [H2|H2].
    + destruct (extend_arr_spec t (Z.of_nat (length r)) 0 HL ltac:(lia)) as (out & E & Hd & Hl & _).
      rewrite E. cbn [bind]. exists out. split; [reflexivity|].
      assert (Hlen : length out = length r).
      { assert (Z.of_nat (length out) = Z.of_nat (length r)); [|lia]. apply Hl. unfold extend_ok. lia. }
      split; [exact Hlen|]. intros k Hk. rewrite Hd by lia. f_equal.
      rewrite Z.sub_0_r, <- Nat2Z.inj_mod. apply Nat2Z.id.
    + exists t. split; [reflexivity|]. split; [lia|]. intros k Hk. now rewrite Nat.mod_small by lia.
Qed.

Lemma c17 {A} (tx rx : list (list A)) nt nr : 0 < nt -> rect tx nt -> rect rx nr -> length rx <= length tx ->
  exists ts, adjust_only tx rx = Ok (ts, rx) /\ length ts = length rx /\
    forall m t, nth_error tx m = Some t -> m < length rx -> exists t', nth_error ts m = Some t' /\ length t' = nr /\
      forall k, k < nr -> nth_error t' k = nth_error t (k mod nt).
Proof.
  intros Hnt Ht Hr Hle. unfold adjust_only.
  remember (if length rx <? length tx then firstn (length rx) tx else tx) as tx1 eqn:Etx1.
  assert (Hl1 : length tx1 = length rx).
  { subst tx1. destruct (Nat.ltb_spec (length rx) (length tx)); [rewrite firstn_length|]; lia. }
  assert (Hn1 : forall m, m < length rx -> nth_error tx1 m = nth_error tx m).
  { intros m Hm. subst tx1. destruct (Nat.ltb_spec (length rx) (length tx)); [now rewrite nth_error_firstn_lt|reflexivity]. }
  clear Etx1. destruct rx as [|r0 rx'] eqn:Erx.
  - destruct tx1; [|discriminate]. cbn. exists []. split; [reflexivity|]. split; [reflexivity|]. cbn. intros; lia.
  - rewrite <- Erx in *. assert (Hrne : rx <> []) by (rewrite Erx; discriminate). clear Erx r0 rx'.
    assert (Hlr : 0 < length rx) by (destruct rx; [congruence|cbn; lia]).
    assert (Hrt1 : row_len tx1 = nt).
    { apply rect_row_len; [intros E; rewrite E in Hl1; cbn in Hl1; lia|].
      apply Forall_forall. intros x Hx. apply In_nth_error in Hx as [m Hm].
      pose proof (nth_error_Some_lt _ _ _ Hm). rewrite Hn1 in Hm by lia. exact (rect_nth _ _ _ _ Ht Hm). }
    rewrite Hrt1, (rect_row_len rx nr Hrne Hr), Hl1, Nat.eqb_refl. cbn [andb].
    destruct (Nat.eqb_spec nt nr) as [->|Hne].
    + exists tx1. split; [reflexivity|]. split; [exact Hl1|]. intros m t Em Hm. exists t. split; [now rewrite Hn1|].
      split; [exact (rect_nth _ _ _ _ Ht Em)|]. intros k Hk. now rewrite Nat.mod_small.
    + set (mth := if nr <? nt then Truncate else Extend).
      set (g := fun i => match nth_error tx i, nth_error rx i with
                         | Some t, Some r => match adjust_data_length t r mth 0 with Ok p => p | Err _ => ([], []) end
                         | _, _ => ([], []) end).
      assert (Hrow : forall i, i < length rx -> exists t r t', nth_error tx i = Some t /\ nth_error rx i = Some r /\
         adjust_data_length t r mth 0 = Ok (t', r) /\ length t' = nr /\ forall k, k < nr -> nth_error t' k = nth_error t (k mod nt)).
      { intros i Hi. destruct (nth_error_lt_Some tx i ltac:(lia)) as [t Et]. destruct (nth_error_lt_Some rx i Hi) as [r Er].
        pose proof (rect_nth _ _ _ _ Ht Et) as L1. pose proof (rect_nth _ _ _ _ Hr Er) as L2.
        destruct (c17_row t r mth) as (t' & E & H1 & H2); [intros ->; cbn in L1; lia|rewrite L1, L2; reflexivity|].
        exists t, r, t'. repeat split; try assumption; try lia. intros k Hk. rewrite H2 by lia. now rewrite L1. }
      rewrite (mapM_ok _ g).
      2:{ intros i Hi. apply in_seq in Hi. destruct (Hrow i ltac:(lia)) as (t & r & t' & Et & Er & E & _).
          unfold getn. rewrite Hn1, Et, Er by lia. cbn [bind]. unfold g. rewrite Et, Er, E. reflexivity. }
      cbn [bind]. rewrite !map_map. eexists. split; [|split].
      * f_equal. f_equal. apply nth_error_ext_lt; [rewrite map_length, seq_length; reflexivity|].
        intros i Hi. rewrite map_length, seq_length in Hi. rewrite nth_error_map_seq by assumption. cbn [Nat.add].
        destruct (Hrow i ltac:(lia)) as (t & r & t' & Et & Er & E & _). unfold g. rewrite Et, Er, E. reflexivity.
      * now rewrite map_length, seq_length.
      * intros m t Em Hm. rewrite nth_error_map_seq by lia. cbn [Nat.add].
        destruct (Hrow m ltac:(lia)) as (t0 & r & t' & Et & Er & E & H1 & H2). assert (t0 = t) by congruence. subst t0.
        exists t'. unfold g. rewrite Et, Er, E. repeat split; assumption.
Qed.

(** ** C19 *)
Section Bytes.
Context {B : Type} (eqb : B -> B -> bool) (eqb_ok : forall a b, eqb a b = true <-> a = b).

Lemma is_prefix_spec p : forall l, is_prefix eqb p l = true <-> appears p l 0.
Proof.
  unfold appears. induction p as [|a p IH]; intros l; cbn [is_prefix].
  - cbn. split; [intros _; split; [lia|intros; lia]|reflexivity].
  - destruct l as [|b l]; cbn [length].
    + split; [discriminate|]. cbn. lia.
    + rewrite andb_true_iff, eqb_ok, IH. split.
      * intros [-> [H1 H2]]. split; [lia|]. intros [|k] Hk; [reflexivity|]. cbn. apply H2. lia.
      * intros [H1 H2]. split; [specialize (H2 0 ltac:(lia)); cbn in H2; congruence|]. split; [lia|].
        intros k Hk. apply (H2 (S k)). lia.
Qed.
Lemma appears_S {A} (p : list A) b l i : appears p (b :: l) (S i) <-> appears p l i.
Proof. unfold appears. cbn [length]. split; intros [H1 H2]; (split; [lia|exact H2]). Qed.

Lemma bytes_index_spec needle : forall hay,
  (forall i, bytes_index eqb needle hay = Ok i <-> appears needle hay i /\ forall j, j < i -> ~ appears needle hay j) /\
  (forall e, bytes_index eqb needle hay = Err e <-> e = ValueError /\ forall j, ~ appears needle hay j).
Proof.
  induction hay as [|b hay [IH1 IH2]]; cbn [bytes_index].
  - destruct (is_prefix eqb needle []) eqn:Ep.
    + apply is_prefix_spec in Ep. split; intros i; split.
      * intros E. injection E as <-. split; [exact Ep|intros; lia].
      * intros [H1 H2]. destruct i; [reflexivity|]. exfalso. now apply (H2 0); [lia|].
      * discriminate.
      * intros [_ H]. now apply H in Ep.
    + assert (Hn : forall j, ~ appears needle [] j).
      { intros j H. assert (j = 0) by (destruct H as [H _]; cbn in H; lia). subst. apply is_prefix_spec in H. congruence. }
      split; intros i; split; try discriminate.
      * intros [H _]. now apply Hn in H.
      * intros E. injection E as <-. now split.
      * intros [-> _]. reflexivity.
  - destruct (is_prefix eqb needle (b :: hay)) eqn:Ep.
    + apply is_prefix_spec in Ep. split; intros i; split.
      * intros E. injection E as <-. split; [exact Ep|intros; lia].
      * intros [H1 H2]. destruct i; [reflexivity|]. exfalso. now apply (H2 0); [lia|].
      * discriminate.
      * intros [_ H]. now apply H in Ep.
    + assert (H0 : ~ appears needle (b :: hay) 0) by (intros H; apply is_prefix_spec in H; congruence).
      destruct (bytes_index eqb needle hay) as [i|e] eqn:E; cbn [bind].
      * destruct (proj1 (IH1 i) eq_refl) as [Ha Hf]. split; intros k; split.
        { intros Ek. injection Ek as <-. split; [now apply appears_S|]. intros [|j] Hj; [exact H0|].
          rewrite appears_S. apply Hf. lia. }
        { intros [H1 H2]. destruct k as [|k]; [contradiction|]. rewrite appears_S in H1. f_equal. f_equal.
          assert (Hki : Ok i = Ok k).
          { apply IH1. split; [exact H1|]. intros j Hj. specialize (H2 (S j) ltac:(lia)). now rewrite appears_S in H2. }
          congruence. }
        { discriminate. }
        { intros [_ H]. exfalso. apply (H (S i)). now apply appears_S. }
      * destruct (proj1 (IH2 e) eq_refl) as [-> Hn]. split; intros k; split; try discriminate.
        { intros [H1 _]. destruct k; [contradiction|]. rewrite appears_S in H1. now apply Hn in H1. }
        { intros Ek. injection Ek as <-. split; [reflexivity|]. intros [|j]; [exact H0|]. rewrite appears_S. apply Hn. }
        { intros [-> _]. reflexivity. }
Qed.

Section Enc.
Context {A : Type} (w : nat) (enc : A -> list B) (Hw : 0 < w) (Hlen : forall a, length (enc a) = w)
        (Hinj : forall a b, enc a = enc b -> a = b).

Lemma concat_len (l : list A) : length (concat (map enc l)) = w * length l.
Proof. induction l as [|a l IH]; cbn; [lia|]. rewrite app_length, Hlen, IH. lia. Qed.
Lemma concat_nth (l : list A) i a c : nth_error l i = Some a -> c < w ->
  nth_error (concat (map enc l)) (w * i + c) = nth_error (enc a) c.
Proof.
  revert i. induction l as [|b l IH]; intros [|i] E Hc; cbn in E; try discriminate.
  - injection E as ->. cbn. rewrite nth_error_app1 by (rewrite Hlen; lia). f_equal. lia.
  - cbn [map concat]. rewrite nth_error_app2 by (rewrite Hlen; lia). rewrite Hlen.
    replace (w * S i + c - w) with (w * i + c) by lia. now apply IH.
Qed.

Lemma appears_enc (sq data : list A) i :
  appears (concat (map enc sq)) (concat (map enc data)) (w * i) <-> appears sq data i \/ (sq = [] /\ i <= length data).
Proof.
  split.
  - intros [H1 H2]. rewrite !concat_len in H1. left. split; [nia|]. intros k Hk.
    destruct (nth_error_lt_Some sq k Hk) as [a Ea]. destruct (nth_error_lt_Some data (i + k) ltac:(nia)) as [b Eb].
    rewrite Ea, Eb. f_equal. apply Hinj. apply nth_error_ext_lt; [now rewrite !Hlen|]. intros c Hc. rewrite Hlen in Hc.
    rewrite <- (concat_nth data (i + k) b c Eb Hc), <- (concat_nth sq k a c Ea Hc).
    rewrite <- H2 by (rewrite concat_len; nia). f_equal. lia.
  - intros [[H1 H2]|[-> H]].
    + split; [rewrite !concat_len; nia|]. intros k Hk. rewrite concat_len in Hk.
      pose proof (Nat.div_mod k w ltac:(lia)) as Hd. pose proof (Nat.mod_upper_bound k w ltac:(lia)) as Hm.
      set (q := k / w) in *. set (c := k mod w) in *. rewrite Hd.
      assert (Hq : q < length sq) by nia.
      destruct (nth_error_lt_Some sq q Hq) as [a Ea]. rewrite (concat_nth sq q a c Ea Hm).
      replace (w * i + (w * q + c)) with (w * (i + q) + c) by lia. apply concat_nth; [|exact Hm]. rewrite H2 by assumption. exact Ea.
    + cbn. split; [rewrite concat_len; cbn; nia|]. cbn. intros; lia.
Qed.

(** an occurrence is always reported, at or before its index, and ValueError means no occurrence *)
Lemma find_offset_general (sq data : list A) : length sq < length data ->
  (forall i, appears sq data i -> exists j, find_offset eqb w enc sq data = Ok j /\ j <= i) /\
  (forall e, find_offset eqb w enc sq data = Err e -> e = ValueError /\ forall i, ~ appears sq data i).
Proof.
  intros Hl. unfold find_offset. destruct (Nat.ltb_spec (length sq) (length data)); [|lia].
  destruct (bytes_index_spec (concat (map enc sq)) (concat (map enc data))) as [S1 S2].
  destruct (bytes_index eqb (concat (map enc sq)) (concat (map enc data))) as [p|e] eqn:E; cbn [bind].
  - destruct (proj1 (S1 p) eq_refl) as [Ha Hf]. split; [|discriminate]. intros i Hi. eexists. split; [reflexivity|].
    assert (p <= w * i).
    { destruct (Nat.le_gt_cases p (w * i)) as [H1|H1]; [exact H1|]. exfalso. apply (Hf (w * i) H1). apply appears_enc. now left. }
    apply Nat.div_le_upper_bound; lia.
  - destruct (proj1 (S2 e) eq_refl) as [-> Hn]. split.
    + intros i Hi. exfalso. apply (Hn (w * i)). apply appears_enc. now left.
    + intros e' Ee. injection Ee as <-. split; [reflexivity|]. intros i Hi. apply (Hn (w * i)). apply appears_enc. now left.
Qed.

(** one byte per element: exact *)
Lemma find_offset_byte (sq data : list A) : w = 1 -> length sq < length data ->
  (forall i, find_offset eqb w enc sq data = Ok i <-> appears sq data i /\ forall j, j < i -> ~ appears sq data j) /\
  (forall e, find_offset eqb w enc sq data = Err e <-> e = ValueError /\ forall i, ~ appears sq data i).
Proof.
  intros Hw1 Hl. unfold find_offset. destruct (Nat.ltb_spec (length sq) (length data)); [|lia].
  destruct (bytes_index_spec (concat (map enc sq)) (concat (map enc data))) as [S1 S2].
  assert (Hap : forall i, appears (concat (map enc sq)) (concat (map enc data)) i <-> appears sq data i).
  { intros i. pose proof (appears_enc sq data i) as H1. rewrite Hw1, Nat.mul_1_l in H1. rewrite H1. split; [|now left].
    intros [H2|[-> H2]]; [exact H2|]. split; [cbn; lia|cbn; intros; lia]. }
  split.
  - intros i. destruct (bytes_index eqb (concat (map enc sq)) (concat (map enc data))) as [p|e] eqn:E; cbn [bind].
    + rewrite Hw1, Nat.div_1_r. rewrite <- (Hap i). specialize (S1 i).
      split.
      * intros Ek. apply S1 in Ek. destruct Ek as [K1 K2]. split; [exact K1|]. intros j Hj. rewrite <- Hap. now apply K2.
      * intros [K1 K2]. apply S1. split; [exact K1|]. intros j Hj. rewrite Hap. now apply K2.
    + split; [discriminate|]. intros [K1 _]. destruct (proj1 (S2 e) eq_refl) as [_ Hn]. exfalso. apply (Hn i). now apply Hap.
  - intros e. destruct (bytes_index eqb (concat (map enc sq)) (concat (map enc data))) as [p|e'] eqn:E; cbn [bind].
    + split; [discriminate|]. intros [_ Hn]. destruct (proj1 (S1 p) eq_refl) as [K1 _]. exfalso. apply (Hn p). now apply Hap.
    + rewrite S2. split; intros [K1 K2]; (split; [exact K1|]); intros j; [rewrite <- Hap|rewrite Hap]; apply K2.
Qed.
End Enc.

(** ** C18 *)

Lemma sync_loop_spec {A} (enc : A -> list B) (H1 : forall a, length (enc a) = 1) (Hinj : forall a b, enc a = enc b -> a = b)
  (tx rx : list A) n : n < length tx ->
  forall tries t,
  (forall off i, sync_loop eqb 1 enc tx rx n tries t = Ok (off, i) ->
     exists k idx, t <= k < t + tries /\ i = k * n /\ off = (Z.of_nat idx - Z.of_nat i)%Z /\
       appears (window rx i n) tx idx /\ (forall j, j < idx -> ~ appears (window rx i n) tx j) /\
       forall k', t <= k' < k -> forall j, ~ appears (window rx (k' * n) n) tx j) /\
  (forall e, sync_loop eqb 1 enc tx rx n tries t = Err e <->
     e = DataSyncError /\ forall k, t <= k < t + tries -> forall j, ~ appears (window rx (k * n) n) tx j).
Proof.
  intros Hn. induction tries as [|tries IH]; intros t; cbn [sync_loop].
  - split; [discriminate|]. intros e. split; [intros E; injection E as <-; split; [reflexivity|intros; lia]|intros [-> _]; reflexivity].
  - fold (window rx (t * n) n).
    assert (Hwl : length (window rx (t * n) n) < length tx) by (unfold window; rewrite firstn_length; lia).
    destruct (find_offset_byte 1 enc ltac:(lia) H1 Hinj (window rx (t * n) n) tx eq_refl Hwl) as [F1 F2].
    destruct (find_offset eqb 1 enc (window rx (t * n) n) tx) as [idx|e] eqn:E.
    + destruct (proj1 (F1 idx) eq_refl) as [Ha Hf]. split.
      * intros off i Eo. injection Eo as <- <-. exists t, idx. repeat split; try lia; try apply Ha; try assumption.
      * intros e. split; [discriminate|]. intros [_ H]. exfalso. apply (H t ltac:(lia) idx Ha).
    + destruct (proj1 (F2 e) eq_refl) as [-> Hno]. destruct (IH (S t)) as [I1 I2]. split.
      * intros off i Eo. destruct (I1 off i Eo) as (k & idx & Hk & Ei & Eoff & Ha & Hf & Hb). exists k, idx.
        repeat split; try lia; try apply Ha; try assumption.
        intros k' Hk' j. destruct (Nat.eq_dec k' t) as [->|Hne]; [apply Hno|]. apply Hb. lia.
      * intros e. rewrite I2. split; intros [-> H]; (split; [reflexivity|]); intros k Hk j.
        { destruct (Nat.eq_dec k t) as [->|Hne]; [apply Hno|]. apply H. lia. }
        { apply H. lia. }
Qed.


Lemma window_nth {A} (l : list A) i n k : k < n -> nth_error (window l i n) k = nth_error l (i + k).
Proof. intros H. unfold window. rewrite nth_error_firstn_lt by assumption. apply nth_error_skipn'. Qed.
Lemma window_length {A} (l : list A) i n : length (window l i n) = Nat.min n (length l - i).
Proof. unfold window. rewrite firstn_length, skipn_length. lia. Qed.

Lemma roll_place {A} (l : list A) (i idx k : nat) : i + k < length l ->
  nth_error (roll (Z.of_nat idx - Z.of_nat i) l) ((idx + k) mod length l) = nth_error l (i + k).
Proof.
  intros H. rewrite roll_nth by (apply Nat.mod_upper_bound; lia). f_equal.
  rewrite Nat2Z.inj_mod. rewrite Zminus_mod_idemp_l.
  replace (Z.of_nat (idx + k) - (Z.of_nat idx - Z.of_nat i))%Z with (Z.of_nat (i + k)) by lia.
  rewrite Z.mod_small by lia. apply Nat2Z.id.
Qed.
Lemma roll_place_tx {A} (tx : list A) (i idx k : nat) : idx + k < length tx ->
  nth_error (roll (- (Z.of_nat idx - Z.of_nat i)) tx) ((i + k) mod length tx) = nth_error tx (idx + k).
Proof.
  intros H. replace (- (Z.of_nat idx - Z.of_nat i))%Z with (Z.of_nat i - Z.of_nat idx)%Z by lia. now apply roll_place.
Qed.
End Bytes.

Section C18.
Context {B : Type} (eqb : B -> B -> bool) (eqb_ok : forall a b, eqb a b = true <-> a = b).
Context {A : Type} (enc : A -> list B) (H1 : forall a, length (enc a) = 1) (Hinj : forall a b, enc a = enc b -> a = b).

Lemma c18_rx (tx rx : list A) n imax off out : n < length tx ->
  sync_rx2tx eqb 1 enc tx rx n imax = Ok (off, out) ->
  exists t idx, t < imax /\ off = (Z.of_nat idx - Z.of_nat (t * n))%Z /\ length out = length rx /\
    idx + length (window rx (t * n) n) <= length tx /\
    (forall k, k < length (window rx (t * n) n) -> nth_error out ((idx + k) mod length rx) = nth_error tx (idx + k)) /\
    (forall t' j, t' < t -> ~ appears (window rx (t' * n) n) tx j).
Proof.
  intros Hn E. unfold sync_rx2tx in E. destruct (sync_loop eqb 1 enc tx rx n imax 0) as [[o i]|] eqn:El; cbn [bind] in E; [|discriminate].
  cbn [fst] in E. injection E as <- <-.
  destruct (sync_loop_spec eqb eqb_ok enc H1 Hinj tx rx n Hn imax 0) as [S1 _].
  destruct (S1 _ _ El) as (t & idx & Ht & -> & -> & [Ha1 Ha2] & _ & Hb).
  exists t, idx. split; [lia|]. split; [reflexivity|]. split; [apply roll_length|]. split; [exact Ha1|]. split.
  - intros k Hk. rewrite Ha2 by assumption. rewrite window_length in Hk. rewrite roll_place by lia. now rewrite window_nth by lia.
  - intros t' j Ht'. apply Hb. lia.
Qed.
Lemma c18_tx (tx rx : list A) n imax off out : n < length tx ->
  sync_tx2rx eqb 1 enc tx rx n imax = Ok (off, out) ->
  exists t idx, t < imax /\ off = (Z.of_nat idx - Z.of_nat (t * n))%Z /\ length out = length tx /\
    idx + length (window rx (t * n) n) <= length tx /\
    (forall k, k < length (window rx (t * n) n) -> nth_error out ((t * n + k) mod length tx) = nth_error rx (t * n + k)) /\
    (forall t' j, t' < t -> ~ appears (window rx (t' * n) n) tx j).
Proof.
  intros Hn E. unfold sync_tx2rx in E. destruct (sync_loop eqb 1 enc tx rx n imax 0) as [[o i]|] eqn:El; cbn [bind] in E; [|discriminate].
  cbn [fst] in E. injection E as <- <-.
  destruct (sync_loop_spec eqb eqb_ok enc H1 Hinj tx rx n Hn imax 0) as [S1 _].
  destruct (S1 _ _ El) as (t & idx & Ht & -> & -> & [Ha1 Ha2] & _ & Hb).
  exists t, idx. split; [lia|]. split; [reflexivity|]. split; [apply roll_length|]. split; [exact Ha1|]. split.
  - intros k Hk. pose proof Hk as Hk'. rewrite window_length in Hk. rewrite roll_place_tx by lia. rewrite Ha2 by assumption. now rewrite window_nth by lia.
  - intros t' j Ht'. apply Hb. lia.
Qed.
Lemma c18_err (tx rx : list A) n imax e : n < length tx ->
  (sync_rx2tx eqb 1 enc tx rx n imax = Err e <->
     e = DataSyncError /\ forall t j, t < imax -> ~ appears (window rx (t * n) n) tx j) /\
  (sync_tx2rx eqb 1 enc tx rx n imax = Err e <->
     e = DataSyncError /\ forall t j, t < imax -> ~ appears (window rx (t * n) n) tx j).
Proof.
  intros Hn. destruct (sync_loop_spec eqb eqb_ok enc H1 Hinj tx rx n Hn imax 0) as [_ S2].
  assert (G : sync_loop eqb 1 enc tx rx n imax 0 = Err e <-> e = DataSyncError /\ forall t j, t < imax -> ~ appears (window rx (t * n) n) tx j).
  { rewrite S2. split; intros [-> H]; (split; [reflexivity|]); intros; apply H; lia. }
  unfold sync_rx2tx, sync_tx2rx.
  destruct (sync_loop eqb 1 enc tx rx n imax 0) as [[o i]|e'] eqn:El; cbn [bind].
  - split; (split; [discriminate|]); intros H; apply G in H; discriminate.
  - split; rewrite <- G; split; congruence.
Qed.
(** with a window left over beyond the end of rx the search always "succeeds" *)
Lemma c18_empty (tx rx : list A) n t : n < length tx -> length rx <= t * n -> appears (window rx (t * n) n) tx 0.
Proof.
  intros Hn Hl. split; [rewrite window_length; lia|]. intros k Hk. rewrite window_length in Hk. lia.
Qed.
End C18.

(** one-dimensional case of the zero lag *)
Lemma occurs_head x y p u : y <> [] -> occurs_at x y p u -> ext x p = (u * ext y 0)%C.
Proof. intros Hy [_ H]. specialize (H 0). rewrite Z.add_0_r in H. apply H. destruct y; [congruence|cbn; lia]. Qed.

Lemma c14_modulus x y p u r : x <> [] -> y <> [] ->
  (0 < r)%R -> (forall s, In s x -> Cnorm2 s = r) -> (forall s, In s y -> Cnorm2 s = r) ->
  occurs_at x y p u -> Cnorm2 u = 1%R ->
  (forall q v, Cnorm2 v = 1%R -> occurs_at x y q v -> q = p) ->
  exists ac, find_sequence_offset x y = Ok (p, ac).
Proof.
  intros Hx Hy Hr H1 H2 Ho Hu Hq. apply (c14 x y p u); try assumption.
  - exact (proj1 (const_modulus_energy x y r 0 Hr H1 H2)).
  - intros d _. exact (proj2 (const_modulus_energy x y r d Hr H1 H2)).
Qed.

Lemma sync_acm_pos t r s : t <> [] -> r <> [] -> sync_and_adjust t r AdjTx = Ok s -> (0 < snd s)%R.
Proof.
  intros Ht Hr E. unfold sync_and_adjust in E.
  destruct (find_sequence_offset_complex r t) as [[[[o y] i] a]|] eqn:Ef; [|discriminate]. cbn [bind] in E.
  assert (Ha : (0 < a)%R).
  { unfold find_sequence_offset_complex in Ef.
    destruct (find_turned r t Hr Ht) as (ix & _ & _ & _ & _ & Et).
    assert (Hms : exists m : nat -> R, forall q, rmax (map fst (acs r (turned q t))) = Ok (m q)).
    { exists (fun q => match rmax (map fst (acs r (turned q t))) with Ok m => m | Err _ => 0%R end).
      intros k. destruct (acs_max r (turned k t) Hr (turned_ne k t Ht)) as (m & -> & _). reflexivity. }
    destruct Hms as [m Hms].
    destruct (offset_loop_spec r t ix m Et Hms [0; 1; 2; 3] None 0%R) as (b' & a' & El' & _ & _ & Hcase).
    { repeat constructor; lia. }
    rewrite El' in Ef. cbn [bind] in Ef. destruct Hcase as [[-> ->]|(k & _ & -> & _ & Hlt)]; [discriminate|].
    injection Ef as _ _ _ <-. exact Hlt. }
  destruct (length r <? length t); [destruct (adjust_data_length (roll o y) r Truncate 0)|
    destruct (length t <? length r); [destruct (adjust_data_length y r Extend o)|]];
    cbn [bind] in E; try discriminate; injection E as <-; exact Ha.
Qed.

Lemma best_mode_ok tx r : r <> [] -> forall idxx best acm,
  (forall i, In i idxx -> exists t, nth_error tx i = Some t /\ t <> [] /\ exists d, corr r t d <> C0) ->
  (acm < 0)%R \/ best <> None -> (idxx <> [] \/ best <> None) ->
  exists i p, best_mode tx r idxx best acm = Ok (Some (i, p)).
Proof.
  intros Hr. induction idxx as [|i idxx IH]; intros best acm Hall Hb Hne.
  - destruct Hne as [H|H]; [congruence|]. destruct best as [[i p]|]; [|congruence]. cbn. eauto.
  - cbn [best_mode]. destruct (Hall i (or_introl eq_refl)) as (t & Et & Ht & d & Hd). unfold getn. rewrite Et. cbn [bind].
    destruct (c13_ok t r AdjTx d Ht Hr Hd) as (t' & r' & a & Es). rewrite Es. cbn [bind snd fst].
    pose proof (sync_acm_pos t r _ Ht Hr Es) as Hpos. cbn [snd] in Hpos.
    destruct (Rlt_dec acm a) as [Hlt|Hge].
    + apply IH; [intros; apply Hall; now right| |]; right; discriminate.
    + destruct Hb as [Hb|Hb]; [lra|]. apply IH; [intros; apply Hall; now right| |]; now right.
Qed.

Lemma list_remove_length i l : In i l -> length (list_remove i l) = length l - 1.
Proof.
  induction l as [|a l IH]; [intros []|]. intros H. cbn [list_remove]. destruct (Nat.eqb_spec a i) as [->|Hne]; [cbn; lia|].
  destruct H as [H|H]; [congruence|]. cbn. rewrite IH by assumption. destruct l; [destruct H|cbn; lia].
Qed.

Lemma sync_modes_ok tx : forall rx idxx first, NoDup idxx -> length rx <= length idxx ->
  (forall i, In i idxx -> exists t, nth_error tx i = Some t /\ t <> []) ->
  (forall t r, In t tx -> In r rx -> t <> [] /\ r <> [] /\ exists d, corr r t d <> C0) ->
  exists ps, sync_modes tx rx idxx first = Ok ps.
Proof.
  induction rx as [|r rx IH]; intros idxx first Hnd Hl Hi Hc; cbn [sync_modes]; [eauto|].
  cbn [length] in Hl.
  assert (Hr : r <> []).
  { destruct idxx as [|i idxx]; [cbn in Hl; lia|]. destruct (Hi i (or_introl eq_refl)) as (t & Et & _).
    apply nth_error_In in Et. apply (Hc t r Et). now left. }
  destruct (best_mode_ok tx r Hr idxx None (-100)%R) as (i & p & E).
  - intros i H. destruct (Hi i H) as (t & Et & Ht). exists t. split; [exact Et|]. split; [exact Ht|].
    apply (Hc t r (nth_error_In _ _ Et)). now left.
  - left. lra.
  - left. intros ->. cbn in Hl. lia.
  - rewrite E. cbn [bind].
    assert (Hin : In i idxx).
    { destruct (best_mode_spec _ _ _ _ _ _ E) as (_ & acm' & _ & _ & [[H _]|(i0 & txi & s & H & _ & _ & Eo & _)]); [discriminate|].
      injection Eo as <- _. exact H. }
    destruct (IH (list_remove i idxx) false) as (ps & Eps).
    + now apply list_remove_nodup.
    + rewrite list_remove_length by assumption. lia.
    + intros k Hk. apply list_remove_in in Hk; [|assumption]. now apply Hi.
    + intros t r' Ht Hr'. apply Hc; [assumption|now right].
    + rewrite Eps. cbn [bind]. eauto.
Qed.

Lemma c16_ok tx rx : length rx <= length tx ->
  (forall t r, In t tx -> In r rx -> t <> [] /\ r <> [] /\ exists d, corr r t d <> C0) ->
  exists ts rs, signal_sync_and_adjust tx rx false = Ok (ts, rs).
Proof.
  intros Hl Hc. unfold signal_sync_and_adjust. destruct rx as [|r0 rx]; [cbn; eauto|].
  destruct (sync_modes_ok tx (r0 :: rx) (seq 0 (Nat.max (length tx) (length (r0 :: rx)))) true) as (ps & E).
  - apply seq_NoDup.
  - rewrite seq_length. lia.
  - intros i Hi. apply in_seq in Hi. destruct (nth_error_lt_Some tx i ltac:(lia)) as [t Et]. exists t. split; [exact Et|].
    apply (Hc t r0); [eapply nth_error_In; eassumption|now left].
  - exact Hc.
  - rewrite E. cbn [bind]. eauto.
Qed.

Lemma c17_extra (t r0 r1 : list C) : t <> [] -> length r0 = length r1 ->
  exists ts, signal_sync_and_adjust [t] [r0; r1] true = Ok (ts, [r0]).
Proof.
  intros Ht Hl. destruct (c17_row t r0 _ Ht eq_refl) as (t' & E & _). exists [t'].
  change (signal_sync_and_adjust [t] [r0; r1] true)
    with (let! ps := (let! b := adjust_data_length t r0 (if length r0 <? length t then Truncate else Extend) 0 in Ok [b]) in
          Ok (map fst ps, map snd ps)).
  rewrite E. reflexivity.
Qed.

Lemma c19_bad : 
  let enc := fun a : nat => [a mod 256; a / 256] in
  find_offset Nat.eqb 2 enc [256] [0; 1; 256] = Ok 0 /\ ~ appears [256] [0; 1; 256] 0 /\
  find_offset Nat.eqb 2 enc [256] [1; 1; 1] = Ok 0 /\ (forall i, ~ appears [256] [1; 1; 1] i).
Proof.
  cbn zeta. split; [vm_compute; reflexivity|]. split; [|split; [vm_compute; reflexivity|]].
  - intros [_ H]. specialize (H 0 ltac:(cbn; lia)). discriminate.
  - intros i [H1 H]. specialize (H 0 ltac:(cbn; lia)). cbn [length] in H1.
    destruct i as [|[|[|i]]]; [| | |lia]; discriminate.
Qed.
