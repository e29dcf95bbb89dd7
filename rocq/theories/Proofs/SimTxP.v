From Coq Require Import List ZArith Bool Arith Reals Lia Lra.
From Verif Require Import Common.Py Common.ListX Common.Cplx Common.SumX Model.Helpers Model.Phase Model.Impair Model.Sync Model.Transmitter
  Model.MatIo Model.SimTx Spec.MatS Spec.ImpairSpec Spec.SimTxS Proofs.MapP Proofs.ImpairQ Proofs.ImpairR Proofs.TxP Proofs.MatP.
Import ListNotations.
Local Open Scope R_scope.

Lemma all_some_inv {A} (l : list (option A)) r : all_some l = Some r -> l = map Some r.
Proof.
  revert r. induction l as [|[x|] l IH]; intros r H; cbn [all_some] in H.
  - injection H as <-. reflexivity.
  - destruct (all_some l) as [r'|]; cbn [option_map] in H; [|discriminate].
    assert (E : r = x :: r') by congruence. rewrite E. cbn [map]. now rewrite (IH r' eq_refl).
  - discriminate.
Qed.
Lemma no_nan_inv X F : no_nan X = Some F -> X = map (map Some) F.
Proof.
  unfold no_nan. revert F. induction X as [|x X IH]; intros F H; cbn [map all_some] in H.
  - injection H as <-. reflexivity.
  - destruct (all_some x) as [y|] eqn:E; [|discriminate]. destruct (all_some (map all_some X)) as [Y|]; cbn [option_map] in H; [|discriminate].
    assert (EF : F = y :: Y) by congruence. rewrite EF. cbn [map]. rewrite (all_some_inv _ _ E). now rewrite <- (IH Y eq_refl).
Qed.
Lemma constant_dec x : constant x \/ ~ constant x.
Proof.
  destruct x as [|a x]; [left; intros ? ? []|].
  assert (D : (forall z, In z x -> z = a) \/ exists z, In z x /\ z <> a).
  { induction x as [|b x IH]; [left; intros ? []|]. destruct (Ceq_dec b a) as [->|H].
    - destruct IH as [IH|(z & H1 & H2)]; [left; intros z [<-|Hz]; auto|right; exists z; split; [now right|assumption]].
    - right. exists b. split; [now left|assumption]. }
  destruct D as [D|(z & H1 & H2)].
  - left. intros u v [<-|Hu] [<-|Hv]; rewrite ?(D u), ?(D v) by assumption; reflexivity.
  - right. intros K. apply H2. apply K; [now right|now left].
Qed.
Lemma nc_inv x y : x <> [] -> nc_row x = map Some y -> normalised x y.
Proof.
  intros Hx E. destruct (constant_dec x) as [Hc|Hc].
  - exfalso. rewrite nc_row_const in E by assumption. destruct x as [|a x]; [contradiction|]. destruct y; discriminate E.
  - destruct (nc_row_ok x Hc) as (y' & a & E' & H1 & H2 & H3 & _). rewrite E in E'.
    assert (y = y').
    { clear - E'. revert y' E'. induction y as [|u y IH]; intros [|v y'] E; cbn in E; try discriminate; [reflexivity|].
      assert (u = v) by congruence. subst v. f_equal. apply IH. congruence. }
    subst y'. split; [exists a; exact H1|]. split; assumption.
Qed.
Lemma nc_fix y : sample_mean y = C0 -> sample_power y = 1 -> nc_row y = map Some y.
Proof.
  intros M P. unfold nc_row.
  assert (Ec : center_row y = y).
  { unfold center_row. change (Cmean y) with (sample_mean y). rewrite M. rewrite <- (map_id y) at 2. apply map_ext. intros z. cring. }
  assert (Pw : mean_power y = 1) by (unfold mean_power, Rmean; rewrite map_length; exact P).
  rewrite Ec, Pw, sqrt_1. unfold cdiv_row. apply map_ext. intros z.
  destruct (Req_EM_T 1 0); [lra|]. apply f_equal. apply C_eq; unfold Cscal; cbn [fst snd]; field.
Qed.
Lemma normalised_length x y : normalised x y -> length y = length x.
Proof. intros [(a & _ & ->) _]. now rewrite map_length. Qed.
Lemma normalised_again x y z : normalised x y -> nc_row y = map Some z -> z = y.
Proof.
  intros (_ & M & P) E. rewrite nc_fix in E by assumption. revert z E.
  clear. induction y as [|u y IH]; intros [|v z] E; cbn in E; try discriminate; [reflexivity|].
  assert (u = v) by congruence. subst v. f_equal. apply IH. congruence.
Qed.

(** ** what happens to one row *)
Lemma rcumsum_nth l : forall acc k d, (k < length l)%nat ->
  nth_error (rcumsum acc l) k = Some (acc + rsum (S k) (fun i => nth i l d)).
Proof.
  induction l as [|x l IH]; intros acc k d Hk; [cbn in Hk; lia|]. cbn [rcumsum]. destruct k as [|k].
  - cbn [nth_error]. rewrite rsum_S, rsum_0. cbn [nth]. apply f_equal. ring.
  - cbn [nth_error]. rewrite (IH (acc + x) k d) by (cbn in Hk; lia). apply f_equal.
    assert (E : forall n f, rsum (S n) f = f O + rsum n (fun i => f (S i))).
    { induction n as [|n IHn]; intros f; [rewrite rsum_S, !rsum_0; ring|]. rewrite rsum_S, IHn, rsum_S. ring. }
    rewrite (E (S k)). cbn [nth]. ring.
Qed.
Lemma rcumsum_len acc l : length (rcumsum acc l) = length l.
Proof. revert acc. induction l as [|x l IH]; intros acc; [reflexivity|]. cbn [rcumsum length]. now rewrite IH. Qed.

Lemma tx_row_distorted o n q g row : length n = length row -> length q = length row -> length g = length row ->
  distorted (or0 (tx_snr o) (fun snr => Rpower 10 (- snr / 20) * sqrt (tx_os o)))
    (or0 (tx_freqoff o) (fun f => f)) (tx_symb_rate o * tx_os o)
    (fun k => nth k n 0) (fun k => nth k q 0)
    (fun k => or0 (tx_linewidth o) (fun df => sqrt (2 * PI * df / (tx_symb_rate o * tx_os o)) * nth k g 0))
    row (tx_row o (n, q, g) row).
Proof.
  intros Ln Lq Lg. unfold tx_row. cbn [fst snd]. set (fs := tx_symb_rate o * tx_os o).
  set (s := or0 (tx_snr o) _). set (row1 := opt_app (tx_snr o) _ row).
  assert (R1 : length row1 = length row /\ forall k z, nth_error row k = Some z ->
     nth_error row1 k = Some (Cadd z (Cscal (s / sqrt 2) (nth k n 0, nth k q 0)))).
  { unfold row1, s. destruct (tx_snr o) as [snr|]; cbn [opt_app or0].
    - unfold awgn_row. cbn [fst snd]. split.
      + rewrite map_length, !combine_length. lia.
      + intros k z Hk. assert (Hl : (k < length row)%nat) by (apply nth_error_Some; congruence).
        rewrite nth_error_map, (combine_nth_both _ _ _ z (nth k n 0, nth k q 0)); [reflexivity|exact Hk|].
        apply combine_nth_both; apply nth_error_nth'; lia.
    - split; [reflexivity|]. intros k z Hk. rewrite Hk. apply f_equal. apply C_eq; unfold Cadd, Cscal; cbn [fst snd]; unfold Rdiv; ring. }
  clearbody row1. destruct R1 as [L1 R1].
  set (f := or0 (tx_freqoff o) _). set (row2 := opt_app (tx_freqoff o) _ row1).
  assert (R2 : length row2 = length row /\ forall k z, nth_error row1 k = Some z ->
     nth_error row2 k = Some (Cmul z (Cexpi (2 * PI * INR k * f / fs)))).
  { unfold row2, f. destruct (tx_freqoff o) as [fo|]; cbn [opt_app or0].
    - split; [rewrite map_length, combine_length, seq_length; lia|].
      intros k z Hk. assert (Hl : (k < length row1)%nat) by (apply nth_error_Some; congruence).
      rewrite nth_error_map, (combine_nth_both _ _ _ k z); [reflexivity| |exact Hk].
      rewrite <- (map_id (seq 0 (length row1))), nth_error_map_seq by assumption. reflexivity.
    - split; [exact L1|]. intros k z Hk. rewrite Hk. apply f_equal.
      replace (2 * PI * INR k * 0 / fs) with 0 by (unfold Rdiv; ring). rewrite Cexpi_0. ring. }
  clearbody row2. destruct R2 as [L2 R2].
  assert (R3 : length (opt_app (tx_linewidth o) (fun df row0 => map (fun p : C * R => (fst p * Cexpi (snd p))%C)
      (combine row0 (rcumsum 0 (map (fun x : R => sqrt (2 * PI * df / fs) * x) g)))) row2) = length row /\
    forall k z, nth_error row2 k = Some z -> nth_error (opt_app (tx_linewidth o) (fun df row0 => map (fun p : C * R => (fst p * Cexpi (snd p))%C)
      (combine row0 (rcumsum 0 (map (fun x : R => sqrt (2 * PI * df / fs) * x) g)))) row2) k =
     Some (Cmul z (Cexpi (rsum (S k) (fun i => or0 (tx_linewidth o) (fun df => sqrt (2 * PI * df / fs) * nth i g 0)))))).
  { destruct (tx_linewidth o) as [df|]; cbn [opt_app or0].
    - split; [rewrite map_length, combine_length, rcumsum_len, map_length; lia|].
      intros k z Hk. assert (Hl : (k < length row2)%nat) by (apply nth_error_Some; congruence).
      rewrite nth_error_map. rewrite (combine_nth_both _ _ _ z (0 + rsum (S k) (fun i => nth i (map (fun x : R => sqrt (2 * PI * df / fs) * x) g) 0))).
      + cbn [option_map fst snd]. rewrite Rplus_0_l. do 3 apply f_equal. apply rsum_ext. intros i Hi.
        rewrite (nth_indep _ 0 (sqrt (2 * PI * df / fs) * 0)) by (rewrite map_length; lia).
        apply (map_nth (fun x : R => sqrt (2 * PI * df / fs) * x)).
      + exact Hk.
      + apply rcumsum_nth. rewrite map_length. lia.
    - split; [exact L2|]. intros k z Hk. rewrite Hk. apply f_equal.
      replace (rsum (S k) (fun _ => 0)) with 0 by (symmetry; apply rsum_zero; reflexivity). rewrite Cexpi_0. ring. }
  destruct R3 as [L3 R3]. split; [exact L3|].
  intros k z Hk. specialize (R1 k z Hk). specialize (R2 k _ R1). specialize (R3 k _ R2). rewrite R3. apply f_equal.
  rewrite Cexpi_add. ring.
Qed.

(** ** the loop *)
Lemma tx_row_length o dr l n row : draws_fit n dr -> length row = n -> length (tx_row o (dr l) row) = n.
Proof.
  intros F L. destruct (F l) as (F1 & F2 & F3). destruct (dr l) as [[a b] c]. cbn [fst snd] in *.
  destruct (tx_row_distorted o a b c row) as [H _]; try congruence.
Qed.
Lemma set_mode_nth l f sig i : nth_error (set_mode l f sig) i =
  option_map (fun r => if (i =? l)%nat then f r else r) (nth_error sig i).
Proof.
  unfold set_mode. destruct (nth_error sig i) as [r|] eqn:E; cbn [option_map].
  - assert (Hi : (i < length sig)%nat) by (apply nth_error_Some; congruence).
    rewrite nth_error_map, (combine_nth_both _ _ _ i r); [reflexivity| |exact E].
    rewrite <- (map_id (seq 0 (length sig))), nth_error_map_seq by assumption. reflexivity.
  - apply nth_error_None in E. apply nth_error_None. rewrite map_length, combine_length, seq_length. lia.
Qed.
Lemma set_mode_length l f sig : length (set_mode l f sig) = length sig.
Proof. unfold set_mode. rewrite map_length, combine_length, seq_length. lia. Qed.
Lemma set_mode_id l f sig : (forall r, f r = r) -> set_mode l f sig = sig.
Proof.
  intros H. apply nth_error_ext_lt; [apply set_mode_length|]. intros i _. rewrite set_mode_nth.
  destruct (nth_error sig i) as [r|]; [|reflexivity]. cbn [option_map]. rewrite H. now destruct (i =? l)%nat.
Qed.
Lemma set_mode_shape l f sig m n : has_shape sig m n -> (forall r, length r = n -> length (f r) = n) -> has_shape (set_mode l f sig) m n.
Proof.
  intros [L H] Hf. split; [now rewrite set_mode_length|]. intros r Hr. apply In_nth_error in Hr. destruct Hr as [i Hi].
  rewrite set_mode_nth in Hi. destruct (nth_error sig i) as [r0|] eqn:E; [|discriminate]. cbn [option_map] in Hi.
  assert (Hr0 : length r0 = n) by (apply H; eapply nth_error_In; exact E).
  destruct (i =? l)%nat; [|congruence]. assert (r = f r0) by congruence. subst r. now apply Hf.
Qed.
Lemma roll_flat_shape d sig m n : (0 < n)%nat -> has_shape sig m n -> has_shape (roll_flat d sig) m n.
Proof.
  intros Hn Hs. destruct (Nat.eq_dec m 0) as [->|Hm].
  - destruct Hs as [L H]. destruct sig; [|discriminate]. split; [reflexivity|]. intros r [].
  - unfold roll_flat. rewrite (row_len_shape sig m n) by (try assumption; lia). destruct Hs as [L H].
    assert (Lc : length (roll d (concat sig)) = (m * n)%nat) by (rewrite roll_length, (concat_length_const n), L by assumption; reflexivity).
    destruct n as [|n']; [lia|]. split; [now apply chunks_length_mul|].
    intros r Hr. eapply chunks_elem_length; [|exact Lc|exact Hr]. lia.
Qed.
Lemma nc_rows E F i x : no_nan (normalise_and_center E) = Some F -> nth_error E i = Some x ->
  exists y, nth_error F i = Some y /\ nc_row x = map Some y.
Proof.
  intros H Hx. apply no_nan_inv in H. unfold normalise_and_center in H.
  assert (K : nth_error (map nc_row E) i = Some (nc_row x)) by (now apply map_nth_error).
  rewrite H, nth_error_map in K. destruct (nth_error F i) as [y|]; [|discriminate]. cbn [option_map] in K. exists y. split; [reflexivity|congruence].
Qed.
Lemma nc_len E F : no_nan (normalise_and_center E) = Some F -> length F = length E.
Proof.
  intros H. apply no_nan_inv in H. unfold normalise_and_center in H. apply (f_equal (@length _)) in H. now rewrite !map_length in H.
Qed.
Lemma nc_shape E F m n : (0 < n)%nat -> has_shape E m n -> no_nan (normalise_and_center E) = Some F ->
  has_shape F m n /\ Forall (fun y => sample_mean y = C0 /\ sample_power y = 1) F.
Proof.
  intros Hn [L H] HF. pose proof (nc_len _ _ HF) as LF.
  assert (K : forall i y, nth_error F i = Some y -> length y = n /\ sample_mean y = C0 /\ sample_power y = 1).
  { intros i y Hy. assert (Hi : (i < length E)%nat) by (rewrite <- LF; apply nth_error_Some; congruence).
    destruct (nth_error E i) as [x|] eqn:Ex; [|apply nth_error_None in Ex; lia].
    destruct (nc_rows E F i x HF Ex) as (y' & E1 & E2). assert (y' = y) by congruence. subst y'.
    assert (Hx : length x = n) by (apply H; eapply nth_error_In; exact Ex).
    assert (N : normalised x y) by (apply nc_inv; [intros ->; cbn in Hx; lia|exact E2]).
    rewrite (normalised_length x y N). split; [exact Hx|]. apply N. }
  split; [split; [congruence|]|].
  - intros r Hr. apply In_nth_error in Hr. destruct Hr as [i Hi]. now apply (K i r).
  - apply Forall_forall. intros r Hr. apply In_nth_error in Hr. destruct Hr as [i Hi]. now apply (K i r).
Qed.

Lemma tx_loop_shape o dr np n ls : (0 < n)%nat -> draws_fit n dr -> forall sig out, has_shape sig np n ->
  tx_loop o dr np ls (Some sig) = Ok (Some out) ->
  has_shape out np n /\ (ls <> [] -> Forall (fun y => sample_mean y = C0 /\ sample_power y = 1) out).
Proof.
  intros Hn Hf. induction ls as [|l ls IH]; intros sig out Hs E; cbn [tx_loop] in E.
  - assert (out = sig) by congruence. subst. split; [exact Hs|]. intros K; contradiction.
  - destruct (tx_delayed o np l sig) as [sig1|e] eqn:Ed; [|discriminate]. cbn [bind] in E.
    assert (S1 : has_shape sig1 np n).
    { unfold tx_delayed in Ed. destruct (tx_delay o) as [ds|]; [|congruence].
      destruct (length ds =? np)%nat; [|discriminate]. destruct (getn ds l) as [d|e]; [|discriminate]. cbn [bind] in Ed.
      assert (sig1 = roll_flat d sig) by congruence. subst. now apply roll_flat_shape. }
    destruct (no_nan (normalise_and_center (set_mode l (tx_row o (dr l)) sig1))) as [F|] eqn:EF.
    + assert (S2 : has_shape (set_mode l (tx_row o (dr l)) sig1) np n).
      { apply set_mode_shape; [exact S1|]. intros r. now apply tx_row_length. }
      destruct (nc_shape _ _ _ _ Hn S2 EF) as [SF NF].
      destruct (IH F out SF E) as [So No]. split; [exact So|]. intros _.
      destruct ls as [|l' ls']; [|now apply No]. cbn [tx_loop] in E. assert (out = F) by congruence. now subst.
    + exfalso. destruct ls; cbn [tx_loop] in E; discriminate.
Qed.
Lemma sim_tx_normalised frame o dr n out after : frame <> [] -> (0 < n)%nat ->
  (forall r, In r frame -> length r = n) -> draws_fit n dr -> sim_tx frame o dr = Ok (Some out, after) ->
  length out = length frame /\ forall y, In y out -> length y = n /\ sample_mean y = C0 /\ sample_power y = 1.
Proof.
  intros Hne Hn Hr Hf E. unfold sim_tx in E.
  destruct (tx_loop o dr (length frame) (seq 0 (length frame)) (Some frame)) as [s|e] eqn:El; [|discriminate].
  cbn [bind] in E. assert (s = Some out).
  { destruct (tx_rot o); [destruct (length frame =? 2)%nat|]; congruence. }
  subst s. destruct (tx_loop_shape o dr (length frame) n _ Hn Hf frame out (conj eq_refl Hr) El) as [[L H] N].
  split; [exact L|]. intros y Hy. split; [now apply H|].
  assert (K : seq 0 (length frame) <> []) by (destruct frame; [contradiction|discriminate]).
  specialize (N K). rewrite Forall_forall in N. now apply N.
Qed.

(** without delays: every mode in terms of its own row *)
Definition done (o : tx_options) (dr : tx_draws) (x : list C) (l : nat) (y : list C) : Prop :=
  exists u, (l = 0%nat -> u = x) /\ (l <> 0%nat -> normalised x u) /\ normalised (tx_row o (dr l) u) y.
Lemma tx_loop_rows o dr np n frame : (0 < n)%nat -> draws_fit n dr -> tx_delay o = None -> has_shape frame np n ->
  forall m k sig out, has_shape sig np n ->
  (forall l x, nth_error frame l = Some x -> exists e, nth_error sig l = Some e /\
     ((l < k)%nat -> done o dr x l e) /\ ((k <= l)%nat -> (k = 0%nat -> e = x) /\ (k <> 0%nat -> normalised x e))) ->
  tx_loop o dr np (seq k m) (Some sig) = Ok (Some out) -> (k + m = np)%nat ->
  forall l x, nth_error frame l = Some x -> exists y, nth_error out l = Some y /\ done o dr x l y.
Proof.
  intros Hn Hf Hd [Lf Rf]. induction m as [|m IH]; intros k sig out Ss Inv E Hkm.
  - cbn [seq tx_loop] in E. assert (out = sig) by congruence. subst out. intros l x Hx.
    assert (l < np)%nat by (rewrite <- Lf; apply nth_error_Some; congruence).
    destruct (Inv l x Hx) as (e & E1 & E2 & _). exists e. split; [exact E1|]. apply E2. lia.
  - cbn [seq tx_loop] in E. unfold tx_delayed in E. rewrite Hd in E. cbn [bind] in E.
    destruct (no_nan (normalise_and_center (set_mode k (tx_row o (dr k)) sig))) as [F|] eqn:EF.
    2:{ exfalso. destruct (seq (S k) m); cbn [tx_loop] in E; discriminate. }
    assert (S2 : has_shape (set_mode k (tx_row o (dr k)) sig) np n).
    { apply set_mode_shape; [exact Ss|]. intros r. now apply tx_row_length. }
    destruct (nc_shape _ _ _ _ Hn S2 EF) as [SF _].
    apply (IH (S k) F out SF); [|exact E|lia].
    intros l x Hx. destruct (Inv l x Hx) as (e & E1 & E2 & E3).
    assert (Hs : nth_error (set_mode k (tx_row o (dr k)) sig) l = Some (if (l =? k)%nat then tx_row o (dr k) e else e))
      by (rewrite set_mode_nth, E1; reflexivity).
    destruct (nc_rows _ _ l _ EF Hs) as (y & Y1 & Y2). exists y. split; [exact Y1|].
    assert (Le : length e = n) by (destruct Ss as [_ Rs]; apply Rs; eapply nth_error_In; exact E1).
    assert (Ene : e <> []) by (intros ->; cbn in Le; lia).
    destruct (Nat.eqb_spec l k) as [->|Hlk].
    + split; [intros _|lia]. specialize (E3 (le_n k)). destruct E3 as [E3 E4]. exists e. split; [exact E3|]. split; [exact E4|].
      apply nc_inv; [|exact Y2]. intros K. pose proof (tx_row_length o dr k n e Hf Le) as W. rewrite K in W. cbn in W. lia.
    + split.
      * intros Hl. specialize (E2 ltac:(lia)). destruct E2 as (u & U1 & U2 & U3).
        rewrite (normalised_again _ _ _ U3 Y2). exists u. auto.
      * intros Hl. destruct (E3 ltac:(lia)) as [E4 E5]. split; [lia|]. intros _.
        destruct (Nat.eq_dec k 0) as [Hk|Hk].
        -- rewrite <- (E4 Hk). now apply nc_inv.
        -- specialize (E5 Hk). now rewrite (normalised_again _ _ _ E5 Y2).
Qed.
Lemma sim_tx_rows frame o dr n out after : (0 < n)%nat -> (forall r, In r frame -> length r = n) -> draws_fit n dr ->
  tx_delay o = None -> sim_tx frame o dr = Ok (Some out, after) ->
  forall l x, nth_error frame l = Some x -> exists u w y,
    (l = 0%nat -> u = x) /\ (l <> 0%nat -> normalised x u) /\
    distorted (or0 (tx_snr o) (fun snr => Rpower 10 (- snr / 20) * sqrt (tx_os o)))
      (or0 (tx_freqoff o) (fun f => f)) (tx_symb_rate o * tx_os o)
      (fun k => nth k (fst (fst (dr l))) 0) (fun k => nth k (snd (fst (dr l))) 0)
      (fun k => or0 (tx_linewidth o) (fun df => sqrt (2 * PI * df / (tx_symb_rate o * tx_os o)) * nth k (snd (dr l)) 0)) u w /\
    normalised w y /\ nth_error out l = Some y.
Proof.
  intros Hn Hr Hf Hd E l x Hx. unfold sim_tx in E.
  destruct (tx_loop o dr (length frame) (seq 0 (length frame)) (Some frame)) as [s|e] eqn:El; [|discriminate].
  cbn [bind] in E. assert (s = Some out).
  { destruct (tx_rot o); [destruct (length frame =? 2)%nat|]; congruence. }
  subst s.
  destruct (tx_loop_rows o dr (length frame) n frame Hn Hf Hd (conj eq_refl Hr) (length frame) 0 frame out (conj eq_refl Hr)) with (l := l) (x := x)
    as (y & Y & u & U1 & U2 & U3); try assumption; try lia.
  - intros l' x' Hx'. exists x'. split; [exact Hx'|]. split; [lia|]. intros _. split; [reflexivity|]. intros K; now contradiction K.
  - assert (Lx : length x = n) by (apply Hr; eapply nth_error_In; exact Hx).
    assert (Lu : length u = n).
    { destruct (Nat.eq_dec l 0) as [H|H]; [now rewrite (U1 H)|]. now rewrite (normalised_length _ _ (U2 H)). }
    exists u, (tx_row o (dr l) u), y. split; [exact U1|]. split; [exact U2|]. split; [|split; [exact U3|exact Y]].
    destruct (Hf l) as (F1 & F2 & F3). destruct (dr l) as [[a b] c]. cbn [fst snd] in *.
    apply tx_row_distorted; congruence.
Qed.

Definition plain (os sr : R) (delay : option (list Z)) (rot : option R) : tx_options :=
  {| tx_os := os; tx_delay := delay; tx_snr := None; tx_symb_rate := sr; tx_freqoff := None; tx_linewidth := None; tx_rot := rot |}.
Lemma sim_tx_one_mode x os sr d dr rot : ~ constant x -> exists y,
  normalised x y /\ sim_tx [x] (plain os sr (Some [d]) rot) dr = Ok (Some [roll d y], [x]).
Proof.
  intros Hc. assert (Hx : x <> []) by (intros ->; apply Hc; intros ? ? []).
  destruct (nc_row_ok x Hc) as (y & a & En & Hs & Hm & Hp & _). exists y. split; [split; [exists a; exact Hs|split; assumption]|].
  unfold sim_tx. cbn [length seq tx_loop]. unfold tx_delayed. cbn [plain tx_delay length Nat.eqb getn nth_error bind].
  rewrite roll_flat_row by assumption.
  rewrite set_mode_id by reflexivity. unfold normalise_and_center. cbn [map]. rewrite nc_row_roll, En, roll_map.
  change [map Some (roll d y)] with (map (map (@Some C)) [roll d y]). rewrite no_nan_some. cbn [bind].
  destruct rot; reflexivity.
Qed.
Lemma sim_tx_rotation x y o dr : tx_rot o <> None -> tx_delay o = None -> sim_tx [x; y] o dr = Err AttributeError.
Proof.
  intros Hr Hd. unfold sim_tx. cbn [length seq tx_loop]. unfold tx_delayed. rewrite Hd. cbn [bind].
  destruct (no_nan (normalise_and_center (set_mode 0 (tx_row o (dr 0%nat)) [x; y]))) as [F|]; cbn [bind tx_loop];
    (destruct (tx_rot o); [reflexivity|contradiction]).
Qed.
Lemma sim_tx_delay_len frame o dr ds : frame <> [] -> tx_delay o = Some ds -> length ds <> length frame ->
  sim_tx frame o dr = Err ValueError.
Proof.
  intros Hne Hd Hl. unfold sim_tx. destruct frame as [|x frame]; [contradiction|]. cbn [length seq tx_loop] in *.
  unfold tx_delayed. rewrite Hd. destruct (Nat.eqb_spec (length ds) (S (length frame))); [lia|]. reflexivity.
Qed.
Lemma sim_tx_argument frame o dr out after : tx_delay o = None -> sim_tx frame o dr = Ok (out, after) ->
  after = match frame with [] => [] | x :: rest => tx_row o (dr 0%nat) x :: rest end.
Proof.
  intros Hd E. unfold sim_tx in E. destruct (tx_loop _ _ _ _ _) as [s|e]; [|discriminate]. cbn [bind] in E. rewrite Hd in E.
  assert (Ea : after = set_mode 0 (tx_row o (dr 0%nat)) frame) by (destruct (tx_rot o); [destruct (length frame =? 2)%nat|]; congruence).
  rewrite Ea. apply nth_error_ext_lt; [rewrite set_mode_length; now destruct frame|].
  intros i _. rewrite set_mode_nth. destruct frame as [|x frame]; [now destruct i|]. destruct i as [|i]; [reflexivity|]. cbn [nth_error].
  now destruct (nth_error frame i).
Qed.
(** two modes delayed by one symbol each come back undelayed *)
Lemma sim_tx_two_delays dr : let x := [(1, 0); (-1, 0)] : list C in
  sim_tx [x; x] (plain 1 1 (Some [1%Z; 1%Z]) None) dr = Ok (Some [x; x], [x; x]) /\
  normalised x x /\ ~ delayed 1 x x.
Proof.
  intros x. set (y := [(-1, 0); (1, 0)] : list C).
  assert (Mx : sample_mean x = C0 /\ sample_power x = 1).
  { unfold x, sample_mean, sample_power, C0. cbn [length map Rsum Csum fold_right]. split.
    - unfold Csum. cbn [fold_right]. apply C_eq; unfold Cscal, Cadd, C0; cbn [fst snd]; lra.
    - unfold Rsum, Cnorm2. cbn [fold_right fst snd INR]. lra. }
  assert (My : sample_mean y = C0 /\ sample_power y = 1).
  { unfold y, sample_mean, sample_power, C0. cbn [length map Rsum Csum fold_right]. split.
    - unfold Csum. cbn [fold_right]. apply C_eq; unfold Cscal, Cadd, C0; cbn [fst snd]; lra.
    - unfold Rsum, Cnorm2. cbn [fold_right fst snd INR]. lra. }
  split; [|split].
  - unfold sim_tx. cbn [length seq tx_loop]. unfold tx_delayed. cbn [plain tx_delay length Nat.eqb getn nth_error bind].
    rewrite !set_mode_id by reflexivity.
    change (roll_flat 1 [x; x]) with [y; y].
    unfold normalise_and_center at 1. cbn [map]. rewrite nc_fix by apply My.
    change [map Some y; map Some y] with (map (map (@Some C)) [y; y]). rewrite no_nan_some. cbn [tx_loop].
    cbn [plain tx_delay length Nat.eqb getn nth_error bind]. rewrite !set_mode_id by reflexivity.
    change (roll_flat 1 [y; y]) with [x; x].
    unfold normalise_and_center at 1. cbn [map]. rewrite nc_fix by apply Mx.
    change [map Some x; map Some x] with (map (map (@Some C)) [x; x]). rewrite no_nan_some. reflexivity.
  - split; [|exact Mx]. exists 1. split; [lra|]. destruct Mx as [-> _]. unfold x. cbn [map].
    apply (f_equal2 cons); [|apply (f_equal2 cons); [|reflexivity]]; apply C_eq; unfold Cscal, Csub, C0; cbn [fst snd]; lra.
  - intros [_ K]. specialize (K 0%nat ltac:(cbn; lia)). change (Some (1, 0) = Some (-1, 0)) in K.
    assert (W : fst (1, 0) = fst (-1, 0)) by congruence. cbn [fst] in W. lra.
Qed.
