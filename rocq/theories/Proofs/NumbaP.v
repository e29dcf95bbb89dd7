(** The numba equaliser computes what the compiled one computes, with conjugated taps. *)
From Coq Require Import List ZArith Arith Bool Lia Reals Lra.
From Verif Require Import Common.Py Common.Cplx Common.ListX Model.Constellation Model.Decision Model.Windows Model.Equaliser Model.NumbaEq
  Spec.Seq Spec.Equal Proofs.EqualP.
Import ListNotations.

Definition conjw (w : list (list C)) : list (list C) := map (map Cconj) w.
Lemma combine_map_seq {A B} (a : list A) (b : list B) n da db : length a = n -> length b = n ->
  combine a b = map (fun i => (nth i a da, nth i b db)) (seq 0 n).
Proof.
  intros Ha Hb. apply nth_error_ext_lt; [rewrite map_length, seq_length, combine_length; lia|].
  intros i Hi. rewrite combine_length in Hi. rewrite (nth_error_nth' (combine a b) (da, db)) by (rewrite combine_length; lia).
  rewrite combine_nth by lia. symmetry. apply (map_nth_error (fun i => (nth i a da, nth i b db))). rewrite (nth_error_nth' _ 0) by (rewrite seq_length; lia). rewrite seq_nth by lia. reflexivity.
Qed.
Lemma conjw_shape w p n : shape w p n -> shape (conjw w) p n.
Proof.
  intros (L & R). split; [unfold conjw; rewrite map_length; exact L|]. unfold rect, conjw in *. rewrite Forall_forall in *. intros r Hr.
  apply in_map_iff in Hr as (r0 & <- & H0). rewrite map_length. apply R, H0.
Qed.
Lemma conjw_cell w p n k i : shape w p n -> k < p -> i < n -> cell C0 (conjw w) k i = Cconj (cell C0 w k i).
Proof.
  intros (L & R) Hk Hi. unfold cell, conjw. rewrite (nth_indep (map (map Cconj) w) [] (map Cconj [])) by (rewrite map_length; lia). rewrite map_nth.
  rewrite (nth_indep (map Cconj (nth k w [])) C0 (Cconj C0)) by (rewrite map_length, (rect_in w n k R) by lia; lia). rewrite map_nth. reflexivity.
Qed.
Lemma n_filter_same w X p n : shape w p n -> shape X p n ->
  n_filter w X = apply_filter C0 Cadd Cmul X (conjw w) n.
Proof.
  intros Hw HX. rewrite (apply_filter_ok C0 Cadd Cmul X (conjw w) p n HX (conjw_shape w p n Hw)).
  unfold n_filter. destruct Hw as (Lw & Rw), HX as (LX & RX). rewrite Lw, LX, Nat.eqb_refl. cbn [negb].
  rewrite (combine_map_seq w X p [] [] Lw LX).
  assert (E : mapM (fun q => if (length (fst q) =? length (snd q)) then Ok (map (fun r => (Cconj (fst r) * snd r)%C) (combine (fst q) (snd q))) else Err ValueError)
                (map (fun i => (nth i w [], nth i X [])) (seq 0 p))
           = Ok (map (fun k => map (fun i => (cell C0 X k i * cell C0 (conjw w) k i)%C) (seq 0 n)) (seq 0 p))).
  { assert (B : forall k, In k (seq 0 p) -> k < p) by (intros k Hk; apply in_seq in Hk; lia). revert B. induction (seq 0 p) as [|k l IH]; intros B; [reflexivity|].
    cbn [map mapM fst snd]. assert (Hk := B k (or_introl eq_refl)).
    rewrite (rect_in w n k Rw), (rect_in X n k RX), Nat.eqb_refl by lia. cbn [bind]. rewrite IH by (intros j Hj; apply B; right; exact Hj). cbn [bind].
    apply (f_equal Ok). apply (f_equal2 cons); [|reflexivity].
    rewrite (combine_map_seq (nth k w []) (nth k X []) n C0 C0) by (apply rect_in; [assumption|lia]). rewrite map_map. apply map_ext_in. intros i Hi. apply in_seq in Hi.
    rewrite (conjw_cell w p n) by (try (split; assumption); lia). cbn [fst snd]. unfold cell. ring. }
  rewrite E. reflexivity.
Qed.
Lemma conj_step mu e a x : (Cconj (a + Cscal mu (Cconj e) * x) = Cconj a + Cscal mu e * Cconj x)%C.
Proof. destruct e as (e1, e2), a as (a1, a2), x as (x1, x2). unfold Cconj, Cadd, Cmul, Cscal. cbn. apply C_eq; cbn; ring. Qed.
Lemma n_update_same mu e w X p n : shape w p n -> shape X p n ->
  tap_update Cadd Cmul Cconj Cscal mu e (conjw w) X = Ok (conjw (n_update mu e w X)) /\ shape (n_update mu e w X) p n.
Proof.
  intros (Lw & Rw) (LX & RX). split.
  - unfold tap_update, n_update, conjw. revert X p Lw LX RX. induction w as [|a w IH]; intros [|b X] p Lw LX RX; cbn [length] in *; try lia; [reflexivity|].
    inversion Rw as [|? ? Ra Rw']; subst. inversion RX as [|? ? Rb RX']; subst.
    cbn [map combine mapM fst snd]. rewrite map_length, Rb, Nat.eqb_refl. cbn [bind].
    rewrite (IH Rw' X (length w) eq_refl ltac:(lia) RX'). cbn [bind]. apply (f_equal Ok). apply (f_equal2 cons); [|reflexivity].
    clear. revert b. induction a as [|x a IH]; intros [|y b]; try reflexivity. cbn [map combine fst snd]. apply (f_equal2 cons); [symmetry; apply conj_step|apply IH].
  - split; [unfold n_update; rewrite map_length, combine_length; lia|]. unfold rect, n_update. apply Forall_forall. intros r Hr.
    apply in_map_iff in Hr as ((a, b) & <- & Hin). apply in_combine_l in Hin as Ha. apply in_combine_r in Hin as Hb. cbn [fst snd].
    rewrite map_length, combine_length. unfold rect in *. rewrite Forall_forall in *. rewrite (Rw a Ha), (RX b Hb). lia.
Qed.
Lemma upd_upd {A} i (u v : A) l : upd i u (upd i v l) = upd i u l.
Proof. revert i. induction l as [|a l IH]; intros [|i]; cbn; try reflexivity. f_equal. apply IH. Qed.
Lemma upd_id {A} i (u : A) l : nth_error l i = Some u -> upd i u l = l.
Proof. revert i. induction l as [|a l IH]; intros [|i] H; cbn in *; try discriminate; [congruence|]. f_equal. apply IH, H. Qed.
Lemma firstn_upd {A} i (v : A) l : i < length l -> firstn (S i) (upd i v l) = firstn i l ++ [v].
Proof. revert i. induction l as [|a l IH]; intros [|i] H; cbn in *; try lia; [reflexivity|]. f_equal. apply IH. lia. Qed.

Section Loop.
Context (E : list (list C)) (os ntaps p l m : nat) (f : C -> list C -> nat -> result C) (symbols : list (list C)) (srow : list C) (errfct : C -> result C) (adaptive : bool).
Hypothesis HE : shape E p l.
Hypothesis Hs : getn symbols m = Ok srow.
Hypothesis Hf : forall x i, f x srow i = errfct x.
Context (trsyms : nat).
Hypothesis Hfit : forall i, i < trsyms -> i * os + ntaps <= l.
Notation go := (run C0 Cadd Cmul Cconj Cscal f adapt_step E os ntaps trsyms symbols).
Notation body i := (Comp 0 i :: (if adaptive && (0 <? i) then [Load 0 i; Store 0 i] else [])).

Lemma n_loop_same n : forall i w mu prev st erow, i + n = trsyms -> shape w p ntaps ->
  nth_error (s_wx st) m = Some (conjw w) -> s_mu st = mu -> nth_error (s_err st) m = Some erow -> length erow = trsyms ->
  (0 < i -> nth_error erow (i - 1) = Some prev) ->
  match n_loop E os ntaps errfct adaptive n i prev mu w with
  | Ok (err, w', mu') => exists st', go st (map (pair m) (flat_map (fun i => body i) (seq i n))) = Ok st' /\
      s_wx st' = upd m (conjw w') (s_wx st) /\ s_mu st' = mu' /\ s_err st' = upd m (firstn i erow ++ err) (s_err st)
  | Err e => go st (map (pair m) (flat_map (fun i => body i) (seq i n))) = Err e
  end.
Proof.
  induction n as [|n IH]; intros i w mu prev st erow Hin Hw Ew Emu Ee Le Hp.
  - cbn [n_loop seq flat_map map run]. exists st. split; [reflexivity|]. split; [symmetry; apply upd_id; exact Ew|]. split; [exact Emu|].
    rewrite app_nil_r, firstn_all2 by lia. symmetry. apply upd_id. exact Ee.
  - cbn [n_loop seq flat_map]. assert (HX : shape (Equaliser.window E (i * os) ntaps) p ntaps) by (apply (window_shape E p l); [exact HE|apply Hfit; lia]).
    set (X := Equaliser.window E (i * os) ntaps) in *.
    rewrite (n_filter_same w X p ntaps Hw HX).
    assert (Ef : exists x, apply_filter C0 Cadd Cmul X (conjw w) ntaps = Ok x) by (eexists; apply (apply_filter_ok C0 Cadd Cmul X (conjw w) p ntaps HX (conjw_shape w p ntaps Hw))).
    destruct Ef as (x & Ef). rewrite Ef. cbn [bind].
    change (map (pair m) (body i ++ flat_map (fun i => body i) (seq (S i) n)))
      with ((m, Comp 0 i) :: map (pair m) ((if adaptive && (0 <? i) then [Load 0 i; Store 0 i] else []) ++ flat_map (fun i => body i) (seq (S i) n))).
    cbn [run exec]. fold X. rewrite (getn_ok _ _ _ Ew). cbn [bind]. rewrite Ef. cbn [bind]. rewrite Hs. cbn [bind]. rewrite Hf.
    destruct (errfct x) as [e|er]; cbn [bind]; [|reflexivity].
    rewrite (getn_ok _ _ _ Ee). cbn [bind]. replace (0 * trsyms + i) with i by lia.
    rewrite (getn_nth erow i C0) by lia. cbn [bind]. rewrite Emu.
    destruct (n_update_same mu e w X p ntaps Hw HX) as (Eu & Su). rewrite Eu. cbn [bind].
    set (w1 := n_update mu e w X) in *.
    set (st1 := State (upd m (conjw w1) (s_wx st)) (upd m (upd i e erow) (s_err st)) mu (s_reg st)).
    assert (Lm : m < length (s_wx st)) by (apply nth_error_Some; congruence). assert (Lme : m < length (s_err st)) by (apply nth_error_Some; congruence).
    assert (Fin : forall st2 mu2, s_wx st2 = s_wx st1 -> s_err st2 = s_err st1 -> s_mu st2 = mu2 ->
      match (let! r := n_loop E os ntaps errfct adaptive n (S i) e mu2 w1 in let '(err, w'', mu'') := r in Ok (e :: err, w'', mu'')) with
      | Ok (err, w', mu') => exists st', go st2 (map (pair m) (flat_map (fun i => body i) (seq (S i) n))) = Ok st' /\
          s_wx st' = upd m (conjw w') (s_wx st) /\ s_mu st' = mu' /\ s_err st' = upd m (firstn i erow ++ err) (s_err st)
      | Err e => go st2 (map (pair m) (flat_map (fun i => body i) (seq (S i) n))) = Err e
      end).
    { intros st2 mu2 E1 E2 E3.
      assert (A := IH (S i) w1 mu2 e st2 (upd i e erow) ltac:(lia) Su).
      rewrite E1, E2 in A. unfold st1 in A. cbn [s_wx s_err] in A.
      specialize (A (upd_nth_same _ _ _ Lm) E3 (upd_nth_same _ _ _ Lme) ltac:(rewrite upd_length; exact Le)).
      specialize (A ltac:(intros _; replace (S i - 1) with i by lia; apply upd_nth_same; lia)).
      destruct (n_loop E os ntaps errfct adaptive n (S i) e mu2 w1) as [((err, w''), mu'')|er]; cbn [bind]; [|exact A].
      destruct A as (st' & A1 & A2 & A3 & A4). exists st'. split; [exact A1|]. split; [rewrite A2; apply upd_upd|]. split; [exact A3|].
      rewrite A4, upd_upd. f_equal. rewrite firstn_upd by lia. rewrite <- app_assoc. reflexivity. }
    destruct (adaptive && (0 <? i)) eqn:Ea.
    + change (map (pair m) ([Load 0 i; Store 0 i] ++ flat_map (fun i => body i) (seq (S i) n)))
        with ((m, Load 0 i) :: (m, Store 0 i) :: map (pair m) (flat_map (fun i => body i) (seq (S i) n))).
      cbn [run exec bind s_wx s_err s_mu s_reg st1].
      apply andb_true_iff in Ea as (_ & Hi). apply Nat.ltb_lt in Hi.
      rewrite (getn_ok _ _ _ (upd_nth_same _ _ _ Lme)). cbn [bind]. replace (0 * trsyms + i) with i by lia.
      rewrite (getn_ok _ _ _ (upd_nth_same i e erow ltac:(lia))). cbn [bind].
      rewrite (getn_ok _ _ prev) by (rewrite upd_nth_other by lia; apply Hp; exact Hi). cbn [bind]. rewrite Nat.eqb_refl.
      apply Fin; reflexivity.
    + apply Fin; reflexivity.
Qed.
Lemma n_train_same w wx mu : 0 < p -> shape w p ntaps -> nth_error wx m = Some (conjw w) -> m < p ->
  match n_train_eq E trsyms os mu w errfct adaptive with
  | Ok (err, w', mu') => exists st, go (start C0 E trsyms 1 mu wx) (map (pair m) (program adaptive 1 trsyms)) = Ok st /\
      s_wx st = upd m (conjw w') wx /\ nth_error (s_err st) m = Some err /\ s_mu st = mu'
  | Err e => go (start C0 E trsyms 1 mu wx) (map (pair m) (program adaptive 1 trsyms)) = Err e
  end.
Proof.
  intros Hp Hw Ew Hm. unfold n_train_eq. destruct HE as (LE & _).
  assert (En : match w with r :: _ => length r | [] => 0 end = ntaps). { destruct Hw as (L & R). destruct w as [|r w0]; [cbn in L; lia|]. inversion R; assumption. }
  rewrite En. unfold program. cbn [seq flat_map]. rewrite app_nil_r.
  pose proof (n_loop_same trsyms 0 w mu C0 (start C0 E trsyms 1 mu wx) (repeat C0 (trsyms * 1)) eq_refl Hw Ew eq_refl) as A.
  specialize (A ltac:(cbn [start s_err]; apply nth_error_repeat; lia) ltac:(rewrite repeat_length; lia) ltac:(lia)).
  destruct (n_loop E os ntaps errfct adaptive trsyms 0 C0 mu w) as [((err, w'), mu')|e]; [|exact A].
  destruct A as (st & A1 & A2 & A3 & A4). exists st. split; [exact A1|]. split; [exact A2|]. split; [|exact A3].
  rewrite A4. cbn [firstn app]. apply upd_nth_same. cbn [start s_err]. rewrite repeat_length. lia.
Qed.
End Loop.
