(** The filter and training kernels (C50-C53). *)
From Coq Require Import String List ZArith Arith Bool Reals Lia Lra.
From Verif Require Import Common.Py Common.ListX Common.Cplx Common.SumX.
From Verif Require Import Spec.Seq Spec.Equal Model.Windows Model.Equaliser.
Import ListNotations.

Lemma getn_ok {A} (l : list A) i a : nth_error l i = Some a -> getn l i = Ok a.
Proof. unfold getn. now intros ->. Qed.
Lemma getn_inv {A} (l : list A) i a : getn l i = Ok a -> nth_error l i = Some a.
Proof. unfold getn. destruct (nth_error l i); congruence. Qed.
Lemma getn_nth {A} (l : list A) i d : i < length l -> getn l i = Ok (nth i l d).
Proof. intros H. apply getn_ok. now apply nth_error_nth'. Qed.
Lemma rect_in {A} (X : list (list A)) n k : rect X n -> k < length X -> length (nth k X []) = n.
Proof.
  intros H Hk. unfold rect in H. rewrite Forall_forall in H. apply H. now apply nth_In.
Qed.

Lemma window_shape {K} (E : list (list K)) p l s n : shape E p l -> s + n <= l -> shape (window E s n) p n.
Proof.
  intros [Hl Hr] H. split; [unfold window; now rewrite map_length|].
  unfold rect, window in *. rewrite Forall_forall in *. intros r Hin.
  apply in_map_iff in Hin as [x [<- Hx]]. rewrite firstn_length, skipn_length, (Hr x Hx). lia.
Qed.
Lemma nth_skipn_add {A} (l : list A) n i d : nth i (skipn n l) d = nth (n + i) l d.
Proof. revert l. induction n as [|n IH]; intros [|a l]; cbn; try (destruct i; reflexivity); auto. Qed.
Lemma nth_firstn_lt {A} (l : list A) n i d : i < n -> nth i (firstn n l) d = nth i l d.
Proof.
  revert l i. induction n as [|n IH]; intros [|a l] [|i] H; cbn; try lia; try reflexivity.
  apply IH. lia.
Qed.
Lemma n_sym_z l n os : 0 < os -> n <= l ->
  Z.to_nat ((Z.of_nat l - Z.of_nat n + 1) / Z.of_nat os) = (l - n + 1) / os.
Proof.
  intros Ho Hn. replace (Z.of_nat l - Z.of_nat n + 1)%Z with (Z.of_nat (l - n + 1)) by lia.
  rewrite <- Nat2Z.inj_div. apply Nat2Z.id.
Qed.
Lemma in_window l n os i : 0 < os -> n <= l -> i < (l - n + 1) / os -> i * os + n <= l.
Proof.
  intros Ho Hn Hi. pose proof (Nat.mul_div_le (l - n + 1) os ltac:(lia)) as H.
  assert (i + 1 <= (l - n + 1) / os) by lia. nia.
Qed.
Lemma upd_same {A} m (v : A) l l' : nth_error l m = nth_error l' m ->
  nth_error (upd m v l) m = nth_error (upd m v l') m.
Proof.
  intros H. destruct (nth_error l m) as [a|] eqn:Ea.
  - pose proof (nth_error_Some_lt _ _ _ Ea). symmetry in H. pose proof (nth_error_Some_lt _ _ _ H).
    rewrite !upd_nth_same; congruence.
  - symmetry in H. pose proof (proj1 (nth_error_None _ _) Ea). pose proof (proj1 (nth_error_None _ _) H).
    rewrite !(proj2 (nth_error_None _ _)); try (rewrite upd_length); congruence.
Qed.
Lemma getn_eq {A} (l l' : list A) m : nth_error l m = nth_error l' m -> getn l m = getn l' m.
Proof. unfold getn. now intros ->. Qed.

Section Filter.
  Context {K : Type} (kz : K) (kadd kmul : K -> K -> K).
  Notation cell := (cell kz).

  Lemma get2_ok (X : list (list K)) p n k i : shape X p n -> k < p -> i < n -> get2 X k i = Ok (cell X k i).
  Proof.
    intros [Hl Hr] Hk Hi. unfold get2. rewrite (getn_nth X k []) by lia. cbn [bind].
    apply getn_nth. rewrite (rect_in X n); [lia|assumption|lia].
  Qed.
  Lemma window_cell (E : list (list K)) s n k i : i < n -> cell (window E s n) k i = cell E k (s + i).
  Proof.
    intros Hi. unfold Equal.cell, window.
    replace (@nil K) with (firstn n (skipn s (@nil K))) at 1 by (now rewrite skipn_nil, firstn_nil).
    rewrite (map_nth (fun row => firstn n (skipn s row))). rewrite nth_firstn_lt by assumption.
    apply nth_skipn_add.
  Qed.

  Definition fsum (X w : list (list K)) (p n : nat) : K :=
    fold_left kadd (concat (map (fun k => map (fun i => kmul (cell X k i) (cell w k i)) (seq 0 n)) (seq 0 p))) kz.

  Lemma apply_filter_ok X w p n : shape X p n -> shape w p n ->
    apply_filter kz kadd kmul X w n = Ok (fsum X w p n).
  Proof.
    intros HX Hw. unfold apply_filter.
    rewrite (mapM_ok _ (fun k => map (fun i => kmul (cell X k i) (cell w k i)) (seq 0 n))).
    - cbn [bind]. destruct HX as [-> _]. reflexivity.
    - intros k Hk. apply in_seq in Hk. destruct HX as [HXl HXr]. assert (Hk' : k < p) by lia.
      apply mapM_ok. intros i Hi. apply in_seq in Hi.
      rewrite (get2_ok X p n) by (try split; auto; lia). cbn [bind].
      rewrite (get2_ok w p n) by (auto; lia). reflexivity.
  Qed.


  Lemma apply_to_signal_ok E p l os wx nm n modes : 0 < os -> n <= l -> shape E p l -> shape3 wx nm p n ->
    Forall (fun m => m < nm) modes ->
    apply_filter_to_signal kz kadd kmul E l os wx n modes =
      Ok (map (fun m => map (fun i => fsum (window E (i * os) n) (nth m wx []) p n)
                            (seq 0 ((l - n + 1) / os))) modes).
  Proof.
    intros Ho Hn HE Hw Hm. unfold apply_filter_to_signal.
    rewrite n_sym_z by assumption.
    assert (H0 : (0 <= (Z.of_nat l - Z.of_nat n + 1) / Z.of_nat os)%Z) by (apply Z.div_pos; lia).
    rewrite (proj2 (Z.ltb_ge _ _) H0).
    apply mapM_ok. intros m Hin. rewrite Forall_forall in Hm. specialize (Hm m Hin).
    apply mapM_ok. intros i Hi. apply in_seq in Hi.
    destruct Hw as [Hwl Hw]. rewrite (getn_nth wx m []) by lia. cbn [bind].
    apply apply_filter_ok.
    - apply (window_shape E p l); [assumption|]. apply in_window; lia.
    - rewrite Forall_forall in Hw. apply Hw. apply nth_In. lia.
  Qed.

End Filter.

(** ** one training step *)
Section Kernel.
  Context {K : Type} (kz : K) (kadd kmul : K -> K -> K) (kconj : K -> K) (kscal : R -> K -> K).
  Variable errorfct : K -> list K -> nat -> result K.
  Variable adapt : R -> K -> K -> R.
  Variables (E : list (list K)) (os ntaps trsyms : nat) (symbols : list (list K)).
  Notation exec := (exec kz kadd kmul kconj kscal errorfct adapt E os ntaps trsyms symbols).
  Notation run := (run kz kadd kmul kconj kscal errorfct adapt E os ntaps trsyms symbols).

  Lemma run_app st a b : run st (a ++ b) = let! st' := run st a in run st' b.
  Proof.
    revert st. induction a as [|[m c] a IH]; intros st; [reflexivity|]. cbn [app Equaliser.run].
    destruct (exec st m c); [cbn [bind]; apply IH|reflexivity].
  Qed.

  (** what a thread can see *)
  Definition same (m : nat) (s t : state (K := K)) : Prop :=
    nth_error (s_wx s) m = nth_error (s_wx t) m /\ nth_error (s_err s) m = nth_error (s_err t) m /\
    s_mu s = s_mu t.
  Definition is_comp (a : action) : Prop := match a with Comp _ _ => True | _ => False end.


  Lemma exec_same s t m a : is_comp a -> same m s t ->
    match exec s m a, exec t m a with
    | Ok s', Ok t' => same m s' t' | Err e, Err e' => e = e' | _, _ => False end.
  Proof.
    intros Hc (Hw & He & Hmu). destruct a as [it i| |]; [|contradiction|contradiction].
    cbn [Equaliser.exec]. rewrite (getn_eq _ _ _ Hw), (getn_eq _ _ _ He), Hmu.
    destruct (getn (s_wx t) m) as [w|]; [cbn [bind]|reflexivity].
    destruct (apply_filter kz kadd kmul (window E (i * os) ntaps) w ntaps) as [x|]; [cbn [bind]|reflexivity].
    destruct (getn symbols m) as [sr|]; [cbn [bind]|reflexivity].
    destruct (errorfct x sr i) as [e|]; [cbn [bind]|reflexivity].
    destruct (getn (s_err t) m) as [er|]; [cbn [bind]|reflexivity].
    destruct (getn er (it * trsyms + i)) as [z|]; [cbn [bind]|reflexivity].
    destruct (tap_update kadd kmul kconj kscal (s_mu t) e w (window E (i * os) ntaps)) as [w'|];
      [cbn [bind]|reflexivity].
    unfold same. cbn [s_wx s_err s_mu]. split; [now apply upd_same|split; [now apply upd_same|reflexivity]].
  Qed.
  Lemma exec_other s s' m k a : exec s k a = Ok s' -> k <> m ->
    nth_error (s_wx s') m = nth_error (s_wx s) m /\ nth_error (s_err s') m = nth_error (s_err s) m.
  Proof.
    intros H Hne. destruct a as [it i|it i|it i]; cbn [Equaliser.exec] in H.
    - destruct (getn (s_wx s) k) as [w|]; [cbn [bind] in H|discriminate].
      destruct (apply_filter kz kadd kmul (window E (i * os) ntaps) w ntaps) as [x|]; [cbn [bind] in H|discriminate].
      destruct (getn symbols k) as [sr|]; [cbn [bind] in H|discriminate].
      destruct (errorfct x sr i) as [e|]; [cbn [bind] in H|discriminate].
      destruct (getn (s_err s) k) as [er|]; [cbn [bind] in H|discriminate].
      destruct (getn er (it * trsyms + i)) as [z|]; [cbn [bind] in H|discriminate].
      destruct (tap_update kadd kmul kconj kscal (s_mu s) e w (window E (i * os) ntaps)) as [w'|];
        [cbn [bind] in H|discriminate].
      injection H as <-. cbn [s_wx s_err]. split; now apply upd_nth_other.
    - injection H as <-. now split.
    - destruct (getn (s_err s) k) as [er|]; [cbn [bind] in H|discriminate].
      destruct (getn er (it * trsyms + i)) as [e|]; [cbn [bind] in H|discriminate].
      destruct (getn er (it * trsyms + i - 1)) as [e0|]; [cbn [bind] in H|discriminate].
      injection H as <-. now split.
  Qed.
  Lemma exec_mu s s' m a : is_comp a -> exec s m a = Ok s' -> s_mu s' = s_mu s.
  Proof.
    intros Hc H. destruct a as [it i| |]; [|contradiction|contradiction]. cbn [Equaliser.exec] in H.
    destruct (getn (s_wx s) m) as [w|]; [cbn [bind] in H|discriminate].
    destruct (apply_filter kz kadd kmul (window E (i * os) ntaps) w ntaps) as [x|]; [cbn [bind] in H|discriminate].
    destruct (getn symbols m) as [sr|]; [cbn [bind] in H|discriminate].
    destruct (errorfct x sr i) as [e|]; [cbn [bind] in H|discriminate].
    destruct (getn (s_err s) m) as [er|]; [cbn [bind] in H|discriminate].
    destruct (getn er (it * trsyms + i)) as [z|]; [cbn [bind] in H|discriminate].
    destruct (tap_update kadd kmul kconj kscal (s_mu s) e w (window E (i * os) ntaps)) as [w'|];
      [cbn [bind] in H|discriminate].
    injection H as <-. reflexivity.
  Qed.

  Lemma run_other sched s s' m : run s sched = Ok s' -> (forall e, In e sched -> fst e <> m) ->
    nth_error (s_wx s') m = nth_error (s_wx s) m /\ nth_error (s_err s') m = nth_error (s_err s) m.
  Proof.
    revert s. induction sched as [|[k a] sched IH]; intros s H Hn; cbn [Equaliser.run] in H.
    - injection H as <-. now split.
    - destruct (exec s k a) as [s1|] eqn:Ex; [cbn [bind] in H|discriminate].
      destruct (exec_other s s1 m k a Ex) as [A B].
      { apply (Hn (k, a)). now left. }
      destruct (IH s1 H) as [A' B']; [intros e He; apply Hn; now right|]. split; congruence.
  Qed.
  Lemma run_mu sched s s' : run s sched = Ok s' -> (forall e, In e sched -> is_comp (snd e)) -> s_mu s' = s_mu s.
  Proof.
    revert s. induction sched as [|[k a] sched IH]; intros s H Hc; cbn [Equaliser.run] in H.
    - injection H as <-. reflexivity.
    - destruct (exec s k a) as [s1|] eqn:Ex; [cbn [bind] in H|discriminate].
      rewrite (IH s1 H) by (intros e He; apply Hc; now right).
      apply (exec_mu s s1 k a); [apply (Hc (k, a)); now left|assumption].
  Qed.

  (** the part of an execution that concerns one mode *)
  Lemma run_filter sched m : forall s s' t, run s sched = Ok s' -> same m s t ->
    (forall e, In e sched -> is_comp (snd e)) ->
    exists t', run t (filter (fun e => fst e =? m) sched) = Ok t' /\ same m s' t'.
  Proof.
    induction sched as [|[k a] sched IH]; intros s s' t H Hs Hc; cbn [Equaliser.run filter fst] in *.
    - injection H as <-. now exists t.
    - destruct (exec s k a) as [s1|] eqn:Ex; [cbn [bind] in H|discriminate].
      assert (Ha : is_comp a) by (apply (Hc (k, a)); now left).
      destruct (Nat.eqb_spec k m) as [->|Hne].
      + cbn [Equaliser.run]. pose proof (exec_same s t m a Ha Hs) as Hx. rewrite Ex in Hx.
        destruct (exec t m a) as [t1|]; [|contradiction]. cbn [bind].
        apply (IH s1 s' t1 H Hx). intros e He. apply Hc. now right.
      + apply (IH s1 s' t H); [|intros e He; apply Hc; now right].
        destruct (exec_other s s1 m k a Ex Hne) as [A B].
        pose proof (exec_mu s s1 k a Ha Ex) as Cm. destruct Hs as (D & F & G). repeat split; congruence.
  Qed.
  (** and backwards: if every mode can run alone, the interleaving runs *)
  Lemma run_exists sched : forall s, (forall e, In e sched -> is_comp (snd e)) ->
    (forall m, In m (map fst sched) -> exists t', run s (filter (fun e => fst e =? m) sched) = Ok t') ->
    exists s', run s sched = Ok s'.
  Proof.
    induction sched as [|[k a] sched IH]; intros s Hc H; [now exists s|].
    assert (Ha : is_comp a) by (apply (Hc (k, a)); now left).
    destruct (H k) as [t Ht]; [now left|]. cbn [filter fst] in Ht. rewrite Nat.eqb_refl in Ht.
    cbn [Equaliser.run] in Ht |- *. destruct (exec s k a) as [s1|] eqn:Ex; [cbn [bind] in *|discriminate].
    apply IH; [intros e He; apply Hc; now right|]. intros m Hm.
    destruct (Nat.eq_dec m k) as [->|Hne]; [now exists t|].
    destruct (H m) as [t1 Ht1]; [now right|]. cbn [filter fst] in Ht1.
    rewrite (proj2 (Nat.eqb_neq k m)) in Ht1 by congruence.
    assert (Hs : same m s s1).
    { destruct (exec_other s s1 m k a Ex ltac:(congruence)) as [A B].
      pose proof (exec_mu s s1 k a Ha Ex). repeat split; congruence. }
    destruct (run_filter _ m s t1 s1 Ht1 Hs) as [t2 [Ht2 _]].
    { intros e He. apply filter_In in He as [He _]. apply Hc. now right. }
    exists t2. rewrite <- Ht2. f_equal. clear.
    induction sched as [|[k a] l IH]; [reflexivity|]. cbn [filter fst].
    destruct (Nat.eqb_spec k m) as [->|Hn]; cbn [filter fst]; [rewrite Nat.eqb_refl; now f_equal|assumption].
  Qed.
End Kernel.

Lemma program_comp niter trsyms a : In a (program false niter trsyms) -> is_comp a.
Proof.
  unfold program. rewrite in_flat_map. intros [it [_ H]]. rewrite in_flat_map in H.
  destruct H as [i [_ H]]. cbn in H. destruct H as [<-|[]]. exact I.
Qed.
Lemma program_in ad niter trsyms a : In a (program ad niter trsyms) ->
  match a with Comp it i => it < niter /\ i < trsyms
             | Load it i | Store it i => it < niter /\ i < trsyms /\ 0 < i end.
Proof.
  unfold program. rewrite in_flat_map. intros [it [Hi H]]. rewrite in_flat_map in H.
  destruct H as [i [Hj H]]. apply in_seq in Hi, Hj. destruct H as [<-|H]; [lia|].
  destruct ad; [|contradiction]. cbn [andb] in H. destruct (Nat.ltb_spec 0 i); [|contradiction].
  destruct H as [<-|[<-|[]]]; lia.
Qed.
Lemma interleaving_in {A} modes (prog : list A) sched e : interleaving modes prog sched -> In e sched ->
  In (snd e) prog.
Proof.
  intros (_ & Hf & Hm) He. pose proof (Hm e He) as Hin. specialize (Hf _ Hin).
  assert (H : In e (filter (fun x => fst x =? fst e) sched)).
  { apply filter_In. split; [assumption|]. apply Nat.eqb_refl. }
  rewrite Hf in H. apply in_map_iff in H as [a [<- Ha]]. exact Ha.
Qed.
Lemma one_by_one_single trsyms ad niter m :
  one_by_one trsyms ad niter [m] = map (pair m) (program ad niter trsyms).
Proof. unfold one_by_one. cbn [flat_map]. apply app_nil_r. Qed.
Lemma filter_pair_same {A} m (l : list A) : filter (fun e => fst e =? m) (map (pair m) l) = map (pair m) l.
Proof. induction l as [|a l IH]; [reflexivity|]. cbn [map filter fst]. rewrite Nat.eqb_refl. now f_equal. Qed.
Lemma filter_pair_other {A} m k (l : list A) : k <> m -> filter (fun e => fst e =? m) (map (pair k) l) = [].
Proof.
  intros H. induction l as [|a l IH]; [reflexivity|]. cbn [map filter fst].
  now rewrite (proj2 (Nat.eqb_neq k m) H).
Qed.
(** the loop without threads is one of the interleavings *)
Lemma one_by_one_interleaving trsyms ad niter modes : NoDup modes ->
  interleaving modes (program ad niter trsyms) (one_by_one trsyms ad niter modes).
Proof.
  intros Hn. split; [assumption|]. unfold one_by_one. split.
  - intros m Hm. induction modes as [|k l IH]; [contradiction|]. cbn [flat_map]. rewrite filter_app.
    apply NoDup_cons_iff in Hn as [Hk Hn]. destruct (Nat.eq_dec k m) as [->|Hne].
    + rewrite filter_pair_same. rewrite <- app_nil_r. f_equal. clear IH Hm.
      induction l as [|k l IH]; [reflexivity|]. cbn [flat_map]. rewrite filter_app.
      rewrite filter_pair_other by (intros ->; apply Hk; now left). cbn [app]. apply IH.
      * intros Hin. apply Hk. now right.
      * apply NoDup_cons_iff in Hn. tauto.
    + rewrite filter_pair_other by assumption. apply IH; [assumption|]. destruct Hm; [congruence|assumption].
  - intros e He. apply in_flat_map in He as [m [Hm He]]. apply in_map_iff in He as [a [<- _]]. exact Hm.
Qed.
