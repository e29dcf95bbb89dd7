(** Error functions (C55), conversions (C56), references (C57), complete calls (C51, C78). *)
From Coq Require Import String List ZArith Arith Bool Reals Lia Lra Sorted.
From Verif Require Import Common.Py Common.ListX Common.Cplx Common.SumX.
From Verif Require Import Spec.Seq Spec.Geometry Spec.Metrics Spec.Equal Model.Constellation Model.Decision Model.Equaliser.
From Verif Require Import Proofs.DecisionP Proofs.QualityQ Proofs.EqualP Proofs.EqualQ Proofs.EqualR Proofs.EqualS.
Import ListNotations.
Local Open Scope R_scope.

(** ** C55 *)
Lemma det_symbol_near x al : (exists t, In t al /\ Cabs (x - t)%C ^ 2 < 1000) ->
  nearest_symbol al x (fst (det_symbol x al)).
Proof.
  intros H. destruct (c21 x al H) as [i [s [[Hs [Hmin _]] [-> _]]]]. cbn [fst]. split.
  - eapply nth_error_In; eassumption.
  - intros s' Hs'. apply In_nth_error in Hs' as [j Hj]. eauto.
Qed.
Lemma det_symbol_in x al : In x al -> fst (det_symbol x al) = x.
Proof.
  intros Hin. assert (H0 : Cabs (x - x)%C = 0).
  { rewrite Csub_diag. unfold Cabs. rewrite Cnorm2_0. apply sqrt_0. }
  destruct (det_symbol_near x al) as [_ Hmin].
  { exists x. split; [assumption|]. rewrite H0. lra. }
  specialize (Hmin x Hin). rewrite H0 in Hmin. set (s := fst (det_symbol x al)) in *.
  pose proof (Cabs_nonneg (x - s)%C). assert (Hz : Cabs (x - s)%C = 0) by lra.
  symmetry. apply Csub_eq0, Cnorm2_zero. rewrite <- Cabs_sqr, Hz. ring.
Qed.
Lemma C_zero2 a b : a = 0 -> b = 0 -> (a, b) = C0.
Proof. now intros -> ->. Qed.
Lemma dd_zero al x i : In x al ->
  sbd_error x al i = Ok C0 /\ mddma_error x al i = Ok C0 /\ ddlms_error x al i = Ok C0.
Proof.
  intros H. unfold sbd_error, mddma_error, ddlms_error. rewrite det_symbol_in by assumption.
  split; [|split]; apply f_equal.
  - apply C_zero2; ring.
  - apply C_zero2; ring.
  - apply Csub_diag.
Qed.
Lemma det_real_near x al : al <> [] -> exists s, det_symbol_argmin_real x al = Ok s /\ In s al /\
  forall s', In s' al -> Rabs (x - s) <= Rabs (x - s').
Proof.
  intros Hne. unfold det_symbol_argmin_real.
  destruct (argmin_ok (map (fun s => Rabs (x - s)) al)) as [i Hi]; [destruct al; [congruence|discriminate]|].
  rewrite Hi. cbn [bind]. destruct (argmin_spec _ _ Hi) as [d [Hd [Hmin _]]]. rewrite nth_error_map in Hd. unfold getn.
  destruct (nth_error al i) as [s|] eqn:Es; [|discriminate]. cbn in Hd. injection Hd as Hd. exists s. split; [reflexivity|].
  split; [eapply nth_error_In; eassumption|]. intros s' Hs'. apply In_nth_error in Hs' as [j Hj]. rewrite Hd.
  apply (Hmin j). rewrite nth_error_map, Hj. reflexivity.
Qed.
Lemma dd_real_zero al x i : In x al -> dd_error_real x al i = Ok 0.
Proof.
  intros H. unfold dd_error_real. destruct (det_real_near x al) as [s [-> [_ Hmin]]]; [now intros ->|]. cbn [bind].
  specialize (Hmin x H). replace (x - x) with 0 in Hmin by ring. rewrite Rabs_R0 in Hmin. f_equal.
  assert (s = x) by (revert Hmin; unfold Rabs; destruct (Rcase_abs _); lra). subst. ring.
Qed.
Lemma sign_is x : is_sign x (sign x).
Proof. unfold is_sign, sign. destruct (Rlt_dec 0 x); [tauto|]. destruct (Rlt_dec x 0); [tauto|]. right; right. split; lra. Qed.
Lemma is_sign_fun x s t : is_sign x s -> is_sign x t -> s = t.
Proof. unfold is_sign. intros [[]|[[]|[]]] [[]|[[]|[]]]; lra. Qed.
Lemma sgncma_differs : exists f e, select_error "sgncma" = Ok f /\ f (1 / 2, 0) [C1] 0%nat = Ok e /\
  forall d a b, is_sign (1 - Cnorm2 (1 / 2, 0)) d -> is_sign (1 / 2) a -> is_sign 0 b -> e <> Cscal d (a, b).
Proof.
  exists cma_error. eexists. split; [reflexivity|]. split; [reflexivity|]. intros d a b Hd Ha Hb He.
  unfold C1 in He. rewrite Cabs_pow2 in He. unfold Re, Cscal, Cnorm2 in He. cbn [fst snd] in He. unfold Cnorm2 in Hd. cbn [fst snd] in Hd.
  apply (f_equal fst) in He. cbn [fst] in He.
  destruct Hd as [[]|[[]|[]]]; destruct Ha as [[]|[[]|[]]]; subst; lra.
Qed.
Lemma pow2_mul (x : R) : x ^ 2 = x * x. Proof. ring. Qed.
Lemma Rabs_pow2 (x : R) : Rabs x ^ 2 = x * x. Proof. rewrite pow2_abs. ring. Qed.

(** ** C56 *)
Lemma real_roundtrip E : convert_sig_to_cmplx (convert_sig_to_real E) (2 * length E) = Ok E.
Proof.
  unfold convert_sig_to_cmplx, convert_sig_to_real. rewrite (Nat.mul_comm 2), Nat.div_mul by lia.
  replace (length E) with (length (map (map Re) E)) by apply map_length.
  rewrite firstn_app, Nat.sub_diag, firstn_all, skipn_app, Nat.sub_diag, skipn_all. cbn [firstn skipn app].
  rewrite app_nil_r. unfold bcast_rows. rewrite !map_length, Nat.eqb_refl. apply f_equal.
  induction E as [|r E IH]; [reflexivity|]. cbn [map combine]. apply (f_equal2 cons); [|exact IH]. cbn [fst snd]. clear.
  induction r as [|[a b] r IH]; [reflexivity|]. cbn [map combine fst snd]. exact (f_equal (cons (a, b)) IH).
Qed.
Lemma repeat_real {A B} (f : A -> B) (row : list A) p : map (map f) (repeat row p) = repeat (map f row) p.
Proof. induction p as [|p IH]; [reflexivity|]. cbn [repeat map]. now rewrite IH. Qed.
Lemma reshape_real m k p rows : (m = "dd_real" \/ m = "dd_data_real")%string -> length rows = p -> (1 <= p)%nat ->
  reshape_symbols (Some (ArrC rows)) m k (2 * p) = Ok (Some (ArrR (convert_sig_to_real rows))).
Proof.
  intros Hm Hl Hp. assert (Hd : (2 * p / 2)%nat = p) by (rewrite (Nat.mul_comm 2); apply Nat.div_mul; lia).
  unfold reshape_symbols. assert (Hn : memb m NONDECISION_BASED = false) by (destruct Hm as [->| ->]; reflexivity).
  assert (Hr : memb m REAL_VALUED = true) by (destruct Hm as [->| ->]; reflexivity). rewrite Hn. cbn [bind]. rewrite Hr.
  destruct rows as [|r [|r2 rows]].
  - cbn in Hl. lia.
  - cbn in Hl. subst p. reflexivity.
  - rewrite Hd, (proj2 (Nat.eqb_eq _ _) Hl). reflexivity.
Qed.
Lemma reshape_real_row m k p row : (m = "dd_real" \/ m = "dd_data_real")%string ->
  reshape_symbols (Some (ArrC [row])) m k (2 * p) = Ok (Some (ArrR (convert_sig_to_real (repeat row p)))).
Proof.
  intros Hm. assert (Hd : (2 * p / 2)%nat = p) by (rewrite (Nat.mul_comm 2); apply Nat.div_mul; lia).
  unfold reshape_symbols. assert (Hn : memb m NONDECISION_BASED = false) by (destruct Hm as [->| ->]; reflexivity).
  assert (Hr : memb m REAL_VALUED = true) by (destruct Hm as [->| ->]; reflexivity). rewrite Hn. cbn [bind]. rewrite Hr, Hd.
  unfold convert_sig_to_real, repeat_rows. now rewrite !repeat_real.
Qed.
Lemma reshape_real_gen k p : (1 <= p)%nat ->
  reshape_symbols None "dd_real" k (2 * p) = Ok (Some (ArrR (convert_sig_to_real (repeat (qam_alphabet k) p)))).
Proof.
  intros Hp. assert (Hd : (2 * p / 2)%nat = p) by (rewrite (Nat.mul_comm 2); apply Nat.div_mul; lia).
  unfold reshape_symbols, convert_sig_to_real. rewrite !repeat_real.
  change (generate_symbols_for_eq "dd_real" k) with (Ok (Some (ArrR [map Re (qam_alphabet k); map Im (qam_alphabet k)]))).
  cbn [bind]. change (memb "dd_real" REAL_VALUED) with true. cbn iota.
  destruct (Nat.ltb_spec 2 (2 * p)) as [H|H]; [now rewrite Hd|]. assert (p = 1%nat) by lia. subst p. reflexivity.
Qed.

(** ** prepared jobs *)
Definition real_method (m : string) : bool := memb (lower m) REAL_VALUED.
Definition nrows (m : string) (p : nat) : nat := if real_method m then 2 * p else p.
Definition taps_shape (t : taps) (nm n : nat) : Prop :=
  match t with TapsC w => shape3 w nm nm n | TapsR w => shape3 w nm nm n end.

Lemma shape3_map {A B} (f : A -> B) w m p n : shape3 w m p n -> shape3 (map (map (map f)) w) m p n.
Proof.
  intros [Hl Hw]. split; [now rewrite map_length|]. rewrite Forall_forall in *. intros x Hx.
  apply in_map_iff in Hx as [y [<- Hy]]. destruct (Hw y Hy) as [A1 A2]. split; [now rewrite map_length|].
  unfold rect in *. rewrite Forall_forall in *. intros r Hr. apply in_map_iff in Hr as [z [<- Hz]].
  rewrite map_length. now apply A2.
Qed.
Lemma init_shape {K} (kz ko : K) n a b : shape3 (init_taps kz ko n a b) a b n.
Proof.
  unfold init_taps. split; [now rewrite map_length, seq_length|]. rewrite Forall_forall. intros x Hx.
  apply in_map_iff in Hx as [i [<- _]]. split; [now rewrite map_length, seq_length|].
  unfold rect. rewrite Forall_forall. intros r Hr. apply in_map_iff in Hr as [j [<- _]]. now rewrite map_length, seq_length.
Qed.
Lemma prepare_inv E p l os k wxy n tr m sy modes j : shape E p l ->
  match wxy with None => True | Some t => taps_shape t (nrows m p) n end ->
  prepare E l os k wxy n tr m sy modes = Ok j ->
  let nm := nrows m p in
  j_ntaps j = n /\
  j_trsyms j = Z.to_nat (match tr with None => cal_training_symbol_len os n l | Some t => t end) /\
  (0 <= match tr with None => cal_training_symbol_len os n l | Some t => t end)%Z /\
  Forall (fun x => x < nm)%nat (j_modes j) /\
  j_modes j = (match modes with None => seq 0 nm
               | Some ms => if real_method m then ms ++ map (fun x => x + p)%nat ms else ms end) /\
  reshape_symbols sy (lower m) k nm = Ok (Some (j_symbols j)) /\
  (if real_method m
   then (exists w, j_wx j = TapsR w /\ shape3 w nm nm n) /\ j_E j = ArrR (convert_sig_to_real E) /\ j_method j = drop5 (lower m)
   else (exists w, j_wx j = TapsC w /\ shape3 w nm nm n) /\ j_E j = ArrC E /\ j_method j = lower m).
Proof.
  intros HE Hw H nm. unfold prepare in H. fold (real_method m) in H. rewrite (proj1 HE) in H.
  change (if real_method m then (2 * p)%nat else p) with nm in H.
  set (ms := match modes with None => seq 0 nm | Some m0 => if real_method m then m0 ++ map (fun x => (x + nm / 2)%nat) m0 else m0 end) in *.
  destruct (forallb (fun m0 => m0 <? nm)%nat ms) eqn:Ef; [cbn [negb] in H|discriminate].
  destruct (match wxy with
      | Some (TapsC w) => if real_method m then if wx_shape w nm then Ok (TapsR (map (map (map Re)) w)) else Err AssertionError
                          else if wx_shape w nm then Ok (TapsC w) else Err AssertionError
      | Some (TapsR w) => if real_method m then if wx_shape w nm then Ok (TapsR w) else Err AssertionError
                          else if wx_shape w nm then Ok (TapsC (map (map (map RtoC)) w)) else Err AssertionError
      | None => if real_method m then Ok (TapsR (init_taps 0 1 n nm nm)) else Ok (TapsC (init_taps C0 C1 n nm nm))
      end) as [w|] eqn:Ew.
  2: { destruct wxy as [[w|w]|]; destruct (real_method m); try (destruct (wx_shape w nm)); cbn in Ew; try discriminate Ew;
       cbn in H; discriminate H. }
  assert (H' : (let! w := Ok w in
      let! s := reshape_symbols sy (lower m) k nm in
      if (match tr with Some t => t | None => cal_training_symbol_len os n l end <? 0)%Z then Err ValueError else
      match s with None => Err ValueError
      | Some s => Ok (Job (if real_method m then ArrR (convert_sig_to_real E) else ArrC E)
          (Z.to_nat (match tr with Some t => t | None => cal_training_symbol_len os n l end)) n w ms s
          (if real_method m then drop5 (lower m) else lower m)) end) = Ok j).
  { rewrite <- H. destruct wxy as [[w1|w1]|]; destruct (real_method m); try (destruct (wx_shape w1 nm)); cbn in Ew; try discriminate Ew;
    injection Ew as <-; reflexivity. }
  clear H. cbn [bind] in H'. destruct (reshape_symbols sy (lower m) k nm) as [s|]; [cbn [bind] in H'|discriminate].
  destruct (Z.ltb_spec (match tr with Some t => t | None => cal_training_symbol_len os n l end) 0) as [|Ht]; [discriminate|].
  destruct s as [s|]; [|discriminate]. injection H' as <-. cbn [j_ntaps j_trsyms j_modes j_symbols j_wx j_E j_method].
  split; [reflexivity|]. split; [reflexivity|]. split; [assumption|]. split.
  { rewrite Forall_forall. intros x Hx. rewrite forallb_forall in Ef. specialize (Ef x Hx). now apply Nat.ltb_lt. }
  split.
  { unfold ms. destruct modes as [m0|]; [|reflexivity]. unfold nm, nrows. destruct (real_method m); [|reflexivity].
    replace (2 * p / 2)%nat with p by (rewrite (Nat.mul_comm 2), Nat.div_mul; lia). reflexivity. }
  split; [reflexivity|].
  destruct wxy as [[w1|w1]|]; destruct (real_method m); try (destruct (wx_shape w1 nm)); cbn in Ew; try discriminate Ew;
    injection Ew as <-; (split; [eexists; split; [reflexivity|]|now split]); try exact Hw; try (apply shape3_map; exact Hw);
    apply init_shape.
Qed.

Section Keep.
  Context {K : Type} (kz : K) (kadd kmul : K -> K -> K) (kconj : K -> K) (kscal : R -> K -> K).
  Variable errorfct : K -> list K -> nat -> result K.
  Variable adapt : R -> K -> K -> R.
  Variables (E : list (list K)) (os ntaps trsyms : nat) (symbols : list (list K)).
  Notation exec := (exec kz kadd kmul kconj kscal errorfct adapt E os ntaps trsyms symbols).
  Notation run := (run kz kadd kmul kconj kscal errorfct adapt E os ntaps trsyms symbols).
  Lemma tap_update_shape mu e w X w' p n : length X = p -> shape w p n ->
    tap_update kadd kmul kconj kscal mu e w X = Ok w' -> shape w' p n.
  Proof.
    intros HX [Hl Hr] H. unfold tap_update in H. split.
    - apply mapM_length in H. rewrite H, combine_length. lia.
    - unfold rect in *. rewrite Forall_forall in *. intros r Hin. apply In_nth_error in Hin as [i Hi].
      destruct (nth_error (combine w X) i) as [[a b]|] eqn:Ep.
      + pose proof (mapM_nth _ _ _ i _ H Ep) as Hm. cbn [fst snd] in Hm. destruct Hm as [r' [Hr' Hm]].
        destruct (Nat.eqb_spec (length a) (length b)) as [Heq|]; [|discriminate]. injection Hm as <-.
        assert (r = map (fun q => kadd (fst q) (kmul (kscal mu e) (kconj (snd q)))) (combine a b)) by congruence. subst r.
        rewrite map_length, combine_length, <- Heq, Nat.min_id. apply Hr. apply nth_error_In in Ep. now apply in_combine_l in Ep.
      + apply nth_error_None in Ep. apply nth_error_Some_lt in Hi. apply mapM_length in H. lia.
  Qed.
  Lemma exec_keep s s' m a p n : length E = p -> shape3 (s_wx s) p p n -> exec s m a = Ok s' -> shape3 (s_wx s') p p n.
  Proof.
    intros HE Hw H. destruct a as [it i|it i|it i]; cbn [Equaliser.exec] in H.
    - destruct (getn (s_wx s) m) as [w|] eqn:Ew; [cbn [bind] in H|discriminate].
      destruct (apply_filter kz kadd kmul (window E (i * os) ntaps) w ntaps) as [x|]; [cbn [bind] in H|discriminate].
      destruct (getn symbols m) as [sr|]; [cbn [bind] in H|discriminate].
      destruct (errorfct x sr i) as [e|]; [cbn [bind] in H|discriminate].
      destruct (getn (s_err s) m) as [er|]; [cbn [bind] in H|discriminate].
      destruct (getn er (it * trsyms + i)) as [z|]; [cbn [bind] in H|discriminate].
      destruct (tap_update kadd kmul kconj kscal (s_mu s) e w (window E (i * os) ntaps)) as [w'|] eqn:Et;
        [cbn [bind] in H|discriminate].
      injection H as <-. cbn [s_wx]. destruct Hw as [Hl Hw]. split; [now rewrite upd_length|].
      apply upd_Forall; [assumption|]. apply (tap_update_shape _ _ w _ _ p n) in Et.
      + assumption.
      + unfold window. now rewrite map_length.
      + rewrite Forall_forall in Hw. apply Hw. apply getn_inv in Ew. eapply nth_error_In; eassumption.
    - injection H as <-. assumption.
    - destruct (getn (s_err s) m) as [er|]; [cbn [bind] in H|discriminate].
      destruct (getn er (it * trsyms + i)) as [e|]; [cbn [bind] in H|discriminate].
      destruct (getn er (it * trsyms + i - 1)) as [e0|]; [cbn [bind] in H|discriminate].
      injection H as <-. assumption.
  Qed.
  Lemma run_keep p n sched : forall s s', length E = p -> shape3 (s_wx s) p p n -> run s sched = Ok s' -> shape3 (s_wx s') p p n.
  Proof.
    induction sched as [|[m a] sched IH]; intros s s' HE Hw H; cbn [Equaliser.run] in H.
    - injection H as <-. assumption.
    - destruct (exec s m a) as [s1|] eqn:Ex; [cbn [bind] in H|discriminate].
      apply (IH s1 s' HE); [|assumption]. now apply (exec_keep s s1 m a p n).
  Qed.
End Keep.

Lemma equalise_inv E p l os k mu wxy n tr niter m sy modes sched w j : shape E p l ->
  match wxy with None => True | Some t => taps_shape t (nrows m p) n end ->
  equalise_signal E l os k mu wxy n tr niter m sy modes sched = Ok (w, j) ->
  prepare E l os k wxy n tr m sy modes = Ok j /\
  if real_method m then exists wt, w = TapsR wt /\ shape3 wt (2 * p) (2 * p) n
  else exists wt, w = TapsC wt /\ shape3 wt p p n.
Proof.
  intros HE Hw H. unfold equalise_signal in H.
  destruct (prepare E l os k wxy n tr m sy modes) as [j'|] eqn:Ep; [cbn [bind] in H|discriminate].
  pose proof (prepare_inv E p l os k wxy n tr m sy modes j' HE Hw Ep) as (_ & _ & _ & _ & _ & _ & Hc).
  unfold nrows in Hc. destruct (real_method m).
  - destruct Hc as [[wt [Ew Hs]] [EE _]]. rewrite EE, Ew in H. destruct (j_symbols j') as [sc|sr]; [discriminate|].
    unfold train_equaliser_realvalued in H. destruct (select_error_real (j_method j')) as [f|]; [cbn [bind] in H|discriminate].
    match type of H with bind ?r _ = _ => destruct r as [st|] eqn:Er end; [|discriminate].
    cbn [bind] in H. injection H as <- <-. split; [reflexivity|]. exists (s_wx st). split; [reflexivity|].
    apply (run_keep _ _ _ _ _ _ _ _ _ _ _ _ (2 * p) n sched _ _) in Er; [assumption| |assumption].
    now apply (real_shape E p l).
  - destruct Hc as [[wt [Ew Hs]] [EE _]]. rewrite EE, Ew in H. destruct (j_symbols j') as [sc|sr]; [|discriminate].
    unfold train_equaliser in H. destruct (select_error (j_method j')) as [f|]; [cbn [bind] in H|discriminate].
    match type of H with bind ?r _ = _ => destruct r as [st|] eqn:Er end; [|discriminate].
    cbn [bind] in H. injection H as <- <-. split; [reflexivity|]. exists (s_wx st). split; [reflexivity|].
    apply (run_keep _ _ _ _ _ _ _ _ _ _ _ _ p n sched _ _) in Er; [assumption| |assumption]. apply HE.
Qed.

Lemma seq_double p : seq 0 (2 * p) = (seq 0 p ++ map (fun x => x + p)%nat (seq 0 p))%list.
Proof.
  replace (2 * p)%nat with (p + p)%nat by lia. rewrite seq_app. f_equal. cbn [Nat.add].
  apply nth_error_ext. intros i. destruct (Nat.lt_ge_cases i p) as [H|H].
  - rewrite nth_error_map_seq, nth_error_seq by assumption. f_equal. lia.
  - rewrite !(proj2 (nth_error_None _ _)); [reflexivity| |]; rewrite ?map_length, seq_length; assumption.
Qed.

Lemma apply_rows E p l os k mu wxy n tr niter m sy modes sched out w : (0 < os)%nat -> (n <= l)%nat -> shape E p l ->
  match wxy with None => True | Some t => taps_shape t (nrows m p) n end ->
  equalise_signal_apply E l os k mu wxy n tr niter m sy modes sched = Ok (out, w) ->
  shape out (length (sel_modes modes p)) ((l - n + 1) / os) /\
  if real_method m
  then exists wt, w = TapsR wt /\ forall j mo i, nth_error (sel_modes modes p) j = Some mo -> (i < (l - n + 1) / os)%nat ->
    cell C0 out j i = (fir_real (convert_sig_to_real E) (nth mo wt []) n (i * os),
                       fir_real (convert_sig_to_real E) (nth (p + mo) wt []) n (i * os))
  else exists wt, w = TapsC wt /\ forall j mo i, nth_error (sel_modes modes p) j = Some mo -> (i < (l - n + 1) / os)%nat ->
    cell C0 out j i = fir E (nth mo wt []) n (i * os).
Proof.
  intros Ho Hn HE Hw H. unfold equalise_signal_apply in H.
  destruct (equalise_signal E l os k mu wxy n tr niter m sy modes sched) as [[w' j]|] eqn:Eq; [cbn [bind] in H|discriminate].
  destruct (equalise_inv E p l os k mu wxy n tr niter m sy modes sched w' j HE Hw Eq) as [Hp Hs].
  pose proof (prepare_inv E p l os k wxy n tr m sy modes j HE Hw Hp) as (_ & _ & _ & Hlt & Hms & _ & Hc).
  unfold nrows in *. destruct (core_apply_filter (j_E j) l os w' n (Some (j_modes j))) as [e|] eqn:Ec; [cbn [bind] in H|discriminate].
  injection H as -> ->. destruct (real_method m) eqn:Er.
  - destruct Hs as [wt [-> Hs]]. destruct Hc as [_ [EE _]]. rewrite EE in Ec.
    set (ms := sel_modes modes p). assert (Hj : j_modes j = (ms ++ map (fun x => x + p)%nat ms)%list).
    { rewrite Hms. unfold ms, sel_modes. destruct modes; [reflexivity|]. apply seq_double. }
    destruct (filter_real (ArrR (convert_sig_to_real E)) (convert_sig_to_real E) (2 * p) l os wt (2 * p) n (Some (j_modes j))
               (length ms) Ho Hn (real_shape E p l HE) Hs (or_introl eq_refl) Hlt) as [o [Hf [Hsh Hcell]]].
    { cbn [sel_modes]. rewrite Hj, app_length, map_length. reflexivity. }
    rewrite Ec in Hf. injection Hf as <-. split; [exact Hsh|]. exists wt. split; [reflexivity|]. intros jj mo i Hjj Hi.
    cbn [sel_modes] in Hcell. rewrite Hj in Hcell. apply (Hcell jj mo (p + mo)%nat i); [|  |assumption].
    + rewrite nth_error_app1 by (apply nth_error_Some_lt in Hjj; exact Hjj). exact Hjj.
    + rewrite nth_error_app2 by lia. replace (length ms + jj - length ms)%nat with jj by lia.
      rewrite nth_error_map, Hjj. cbn. f_equal. lia.
  - destruct Hs as [wt [-> Hs]]. destruct Hc as [_ [EE _]]. rewrite EE in Ec.
    destruct (filter_complex E p l os wt p n (Some (j_modes j)) Ho Hn HE Hs Hlt) as [o [Hf [Hsh Hcell]]].
    rewrite Ec in Hf. injection Hf as <-. cbn [sel_modes] in Hsh, Hcell.
    assert (Hj : j_modes j = sel_modes modes p) by (rewrite Hms; now destruct modes).
    rewrite Hj in Hsh, Hcell. split; [exact Hsh|]. exists wt. split; [reflexivity|]. intros jj mo i Hjj Hi.
    now apply (Hcell jj mo i).
Qed.

Lemma dual_rows E p l os k mu wxy n tr niter m1 m2 sy modes sched out w : (0 < os)%nat -> (n <= l)%nat -> shape E p l ->
  match wxy with None => True | Some t => taps_shape t (nrows m1 p) n end -> real_method m1 = real_method m2 ->
  (real_method m2 = true -> modes = None) ->
  dual_mode_equalisation E l os k mu wxy n tr niter (m1, m2) sy modes sched = Ok (out, w) ->
  shape out (length (sel_modes modes p)) ((l - n + 1) / os) /\
  if real_method m2
  then exists wt, w = TapsR wt /\ forall j mo i, nth_error (sel_modes modes p) j = Some mo -> (i < (l - n + 1) / os)%nat ->
    cell C0 out j i = (fir_real (convert_sig_to_real E) (nth mo wt []) n (i * os),
                       fir_real (convert_sig_to_real E) (nth (p + mo) wt []) n (i * os))
  else exists wt, w = TapsC wt /\ forall j mo i, nth_error (sel_modes modes p) j = Some mo -> (i < (l - n + 1) / os)%nat ->
    cell C0 out j i = fir E (nth mo wt []) n (i * os).
Proof.
  intros Ho Hn HE Hw Hsame Hmode H. unfold dual_mode_equalisation in H. cbn [fst snd] in H.
  destruct (stage_symbols sy m1) as [s1|]; [cbn [bind] in H|discriminate].
  match type of H with bind ?r _ = _ => destruct r as [[w1 j1]|] eqn:E1 end; [cbn [bind fst] in H|discriminate].
  destruct (stage_symbols sy m2) as [s2|]; [cbn [bind] in H|discriminate].
  match type of H with bind ?r _ = _ => destruct r as [[w2 j2]|] eqn:E2 end; [cbn [bind fst] in H|discriminate].
  match type of H with bind ?r _ = _ => destruct r as [e|] eqn:E3 end; [cbn [bind] in H|discriminate].
  injection H as -> ->. apply (equalise_inv E p l) in E1 as [_ Hs1]; [|assumption|assumption].
  assert (Hw1 : match Some w1 with None => True | Some t => taps_shape t (nrows m2 p) n end).
  { unfold nrows. rewrite <- Hsame. destruct (real_method m1); destruct Hs1 as [wt [-> Hs]]; exact Hs. }
  apply (equalise_inv E p l) in E2 as [Hp Hs2]; [|assumption|exact Hw1].
  pose proof (prepare_inv E p l os k (Some w1) n (snd tr) m2 s2 modes j2 HE Hw1 Hp) as (_ & _ & _ & Hlt & Hms & _ & _).
  unfold nrows in *. destruct (real_method m2) eqn:Er.
  - rewrite (Hmode eq_refl) in *. destruct Hs2 as [wt [-> Hs]].
    destruct (filter_real (ArrC E) (convert_sig_to_real E) (2 * p) l os wt (2 * p) n None p Ho Hn (real_shape E p l HE) Hs)
      as [o [Hf [Hsh Hcell]]]; [right; now exists E|exact I| |].
    { cbn [sel_modes]. rewrite seq_length. lia. }
    rewrite E3 in Hf. injection Hf as <-. split; [cbn [sel_modes]; rewrite seq_length; exact Hsh|].
    exists wt. split; [reflexivity|]. intros jj mo i Hjj Hi. cbn [sel_modes] in Hcell, Hjj.
    pose proof (nth_error_Some_lt _ _ _ Hjj) as Hlt'. rewrite seq_length in Hlt'.
    rewrite nth_error_seq in Hjj by assumption. injection Hjj as <-. apply (Hcell jj jj (p + jj)%nat i); [| |assumption].
    + rewrite nth_error_seq by lia. reflexivity.
    + rewrite nth_error_seq by lia. reflexivity.
  - destruct Hs2 as [wt [-> Hs]].
    destruct (filter_complex E p l os wt p n modes Ho Hn HE Hs) as [o [Hf [Hsh Hcell]]].
    { destruct modes; [rewrite Hms in Hlt; exact Hlt|exact I]. }
    rewrite E3 in Hf. injection Hf as <-. split; [exact Hsh|]. exists wt. split; [reflexivity|]. intros jj mo i Hjj Hi.
    now apply (Hcell jj mo i).
Qed.
