(** Step size (C50), training windows (C51), independence of the modes (C52). *)
From Coq Require Import String List ZArith Arith Bool Reals Lia Lra.
From Verif Require Import Common.Py Common.ListX Common.Cplx Common.SumX.
From Verif Require Import Spec.Seq Spec.Equal Model.Windows Model.Equaliser Proofs.EqualP.
Import ListNotations.

(** ** C50 *)
Lemma map_flat_map {X Y Z} (g : Y -> Z) (f : X -> list Y) l :
  map g (flat_map f l) = flat_map (fun x => map g (f x)) l.
Proof. induction l as [|x l IH]; [reflexivity|]. cbn [flat_map]. now rewrite map_app, IH. Qed.

Section Mu.
  Context {K : Type} (kz : K) (kadd kmul : K -> K -> K) (kconj : K -> K) (kscal : R -> K -> K).
  Variable errorfct : K -> list K -> nat -> result K.
  Variable adapt : R -> K -> K -> R.
  Hypothesis Hadapt : forall mu e e0, (0 < mu -> 0 < adapt mu e e0 <= mu)%R.
  Variables (E : list (list K)) (os ntaps trsyms : nat) (symbols : list (list K)).
  Notation exec := (exec kz kadd kmul kconj kscal errorfct adapt E os ntaps trsyms symbols).
  Notation run := (run kz kadd kmul kconj kscal errorfct adapt E os ntaps trsyms symbols).

  Lemma exec_cases s s' m a : exec s m a = Ok s' ->
    match a with
    | Comp _ _ => s_mu s' = s_mu s /\ s_reg s' = s_reg s
    | Load _ _ => s_mu s' = s_mu s /\ s_reg s' m = s_mu s /\ (forall t, t <> m -> s_reg s' t = s_reg s t)
    | Store _ _ => (exists e e0, s_mu s' = adapt (s_reg s m) e e0) /\ s_reg s' = s_reg s
    end.
  Proof.
    intros H. destruct a as [it i|it i|it i]; cbn [Equaliser.exec] in H.
    - destruct (getn (s_wx s) m) as [w|]; [cbn [bind] in H|discriminate].
      destruct (apply_filter kz kadd kmul (window E (i * os) ntaps) w ntaps) as [x|]; [cbn [bind] in H|discriminate].
      destruct (getn symbols m) as [sr|]; [cbn [bind] in H|discriminate].
      destruct (errorfct x sr i) as [e|]; [cbn [bind] in H|discriminate].
      destruct (getn (s_err s) m) as [er|]; [cbn [bind] in H|discriminate].
      destruct (getn er (it * trsyms + i)) as [z|]; [cbn [bind] in H|discriminate].
      destruct (tap_update kadd kmul kconj kscal (s_mu s) e w (window E (i * os) ntaps)) as [w'|];
        [cbn [bind] in H|discriminate].
      injection H as <-. now split.
    - injection H as <-. cbn [s_mu s_reg]. rewrite Nat.eqb_refl. repeat split.
      intros t Ht. now rewrite (proj2 (Nat.eqb_neq t m) Ht).
    - destruct (getn (s_err s) m) as [er|]; [cbn [bind] in H|discriminate].
      destruct (getn er (it * trsyms + i)) as [e|]; [cbn [bind] in H|discriminate].
      destruct (getn er (it * trsyms + i - 1)) as [e0|]; [cbn [bind] in H|discriminate].
      injection H as <-. cbn [s_mu s_reg]. split; [now exists e, e0|reflexivity].
  Qed.

  (** every interleaving: positive and at most the given step size *)
  Lemma run_bound mu0 sched : forall s s', run s sched = Ok s' ->
    (0 < s_mu s <= mu0)%R -> (forall t, 0 < s_reg s t <= mu0)%R -> (0 < s_mu s' <= mu0)%R.
  Proof.
    induction sched as [|[m a] sched IH]; intros s s' H Hm Hr; cbn [Equaliser.run] in H.
    - injection H as <-. assumption.
    - destruct (exec s m a) as [s1|] eqn:Ex; [cbn [bind] in H|discriminate].
      pose proof (exec_cases s s1 m a Ex) as Hc. apply (IH s1 s' H).
      + destruct a as [it i|it i|it i].
        * destruct Hc as [-> _]. assumption.
        * destruct Hc as [-> _]. assumption.
        * destruct Hc as [[e [e0 ->]] _]. pose proof (Hadapt (s_reg s m) e e0). pose proof (Hr m). lra.
      + intros t. destruct a as [it i|it i|it i].
        * destruct Hc as [_ ->]. apply Hr.
        * destruct Hc as (_ & A & B). destruct (Nat.eq_dec t m) as [->|Hne]; [rewrite A; assumption|].
          rewrite B by assumption. apply Hr.
        * destruct Hc as [_ ->]. apply Hr.
  Qed.

  (** schedules in which nothing comes between reading and writing the step size *)
  Inductive serial : list (nat * action) -> Prop :=
  | ser_nil : serial []
  | ser_comp m it i r : serial r -> serial ((m, Comp it i) :: r)
  | ser_adapt m it i it' i' r : serial r -> serial ((m, Load it i) :: (m, Store it' i') :: r).
  Lemma serial_app a b : serial a -> serial b -> serial (a ++ b).
  Proof. intros Ha Hb. induction Ha; cbn [app]; [assumption|now constructor|now constructor]. Qed.
  Lemma serial_flat {X} (f : X -> list (nat * action)) l : (forall x, serial (f x)) -> serial (flat_map f l).
  Proof. intros H. induction l as [|x l IH]; [constructor|]. cbn [flat_map]. now apply serial_app. Qed.
  Lemma serial_one_by_one ad niter modes : serial (one_by_one trsyms ad niter modes).
  Proof.
    unfold one_by_one. apply serial_flat. intros m. unfold program. rewrite map_flat_map.
    apply serial_flat. intros it. rewrite map_flat_map. apply serial_flat. intros i.
    cbn [map]. destruct (ad && (0 <? i)); cbn [map]; repeat constructor.
  Qed.

  Definition ready (s : state (K := K)) (rest : list (nat * action)) : Prop :=
    serial rest \/ exists m it i r, rest = (m, Store it i) :: r /\ serial r /\ s_reg s m = s_mu s.
  Lemma ready_step s s' m a r : (0 < s_mu s)%R -> ready s ((m, a) :: r) -> exec s m a = Ok s' ->
    ready s' r /\ (0 < s_mu s' <= s_mu s)%R.
  Proof.
    intros Hp Hr Ex. pose proof (exec_cases s s' m a Ex) as Hc.
    destruct Hr as [Hr|(m' & it & i & r' & Heq & Hr & Hreg)].
    - inversion Hr; subst; cbn in Hc.
      + destruct Hc as [-> _]. split; [now left|lra].
      + destruct Hc as (A & B & _). split; [|lra]. right. exists m, it', i', r0. repeat split; [assumption|congruence].
    - injection Heq as <- -> ->. destruct Hc as [[e [e0 ->]] _]. rewrite Hreg. split; [now left|].
      now apply Hadapt.
  Qed.
  Lemma run_ready b : forall s s' r, (0 < s_mu s)%R -> ready s (b ++ r) -> run s b = Ok s' ->
    ready s' r /\ (0 < s_mu s' <= s_mu s)%R.
  Proof.
    induction b as [|[m a] b IH]; intros s s' r Hp Hr H; cbn [Equaliser.run app] in *.
    - injection H as <-. split; [assumption|lra].
    - destruct (exec s m a) as [s1|] eqn:Ex; [cbn [bind] in H|discriminate].
      destruct (ready_step s s1 m a _ Hp Hr Ex) as [Hr1 Hm1].
      destruct (IH s1 s' r ltac:(lra) Hr1 H) as [Hr2 Hm2]. split; [assumption|lra].
  Qed.
  Lemma serial_mono a b c s s1 s2 : serial (a ++ b ++ c) -> (0 < s_mu s)%R ->
    run s a = Ok s1 -> run s1 b = Ok s2 -> (0 < s_mu s2 <= s_mu s1)%R.
  Proof.
    intros Hs Hp Ha Hb. destruct (run_ready a s s1 (b ++ c) Hp (or_introl Hs) Ha) as [Hr Hm].
    now destruct (run_ready b s1 s2 c ltac:(lra) Hr Hb).
  Qed.
End Mu.

Lemma adapt_shrinks mu q : (0 < mu -> 0 <= q -> 0 < mu / (1 + mu * q) <= mu)%R.
Proof.
  intros Hm Hq. assert (Hd : (1 <= 1 + mu * q)%R) by nra. split.
  - apply Rdiv_lt_0_compat; lra.
  - apply (Rmult_le_reg_r (1 + mu * q)); [lra|]. unfold Rdiv.
    rewrite Rmult_assoc, Rinv_l, Rmult_1_r by lra. nra.
Qed.
Lemma adapt_step_ok mu e e0 : (0 < mu -> 0 < adapt_step mu e e0 <= mu)%R.
Proof.
  intros Hm. unfold adapt_step. assert (H : (0 <= Re e0 * Re e0 + Im e0 * Im e0)%R) by nra.
  pose proof (adapt_shrinks mu _ Hm H).
  destruct (Rlt_dec _ _); [destruct (Rlt_dec _ _)|]; lra.
Qed.
Lemma adapt_step_real_ok mu e e0 : (0 < mu -> 0 < adapt_step_real mu e e0 <= mu)%R.
Proof.
  intros Hm. unfold adapt_step_real. assert (H : (0 <= e0 * e0)%R) by nra.
  pose proof (adapt_shrinks mu _ Hm H). destruct (Rlt_dec _ _); lra.
Qed.

(** ** C51 *)
Lemma train_len os n l i : 0 < os -> 0 < n ->
  (Z.of_nat i < cal_training_symbol_len os n l)%Z -> i * os + n <= l.
Proof.
  intros Ho Hn H. unfold cal_training_symbol_len in H.
  assert (A : (Z.of_nat os * (Z.of_nat l / Z.of_nat os) <= Z.of_nat l)%Z) by (apply Z.mul_div_le; lia).
  assert (B : (Z.of_nat n * (Z.of_nat l / Z.of_nat os / Z.of_nat n) <= Z.of_nat l / Z.of_nat os)%Z)
    by (apply Z.mul_div_le; lia).
  set (q := (Z.of_nat l / Z.of_nat os)%Z) in *. set (q2 := (q / Z.of_nat n)%Z) in *.
  clearbody q2. clearbody q. nia.
Qed.

Lemma shape3_nth {A} (w : list (list (list A))) m p' t k : shape3 w m p' t -> k < m -> shape (nth k w []) p' t.
Proof. intros [Hl Hw] Hk. rewrite Forall_forall in Hw. apply Hw. apply nth_In. lia. Qed.
Lemma upd_Forall {A} (P : A -> Prop) m v l0 : Forall P l0 -> P v -> Forall P (upd m v l0).
Proof.
  intros H Hv. rewrite Forall_forall in *. intros x Hx. apply In_nth_error in Hx as [i Hi].
  destruct (Nat.eq_dec m i) as [<-|Hne].
  - destruct (Nat.lt_ge_cases m (length l0)) as [Hlt|Hge].
    + rewrite upd_nth_same in Hi by assumption. congruence.
    + pose proof (nth_error_Some_lt _ _ _ Hi) as Hb. rewrite upd_length in Hb. lia.
  - rewrite upd_nth_other in Hi by assumption. apply H. eapply nth_error_In; eauto.
Qed.
Lemma program_true ad n t a : In a (program ad n t) -> In a (program true n t).
Proof.
  unfold program. rewrite !in_flat_map. intros [it [Hi H]]. exists it. split; [assumption|].
  rewrite in_flat_map in *. destruct H as [i [Hj H]]. exists i. split; [assumption|].
  destruct H as [<-|H]; [now left|]. right. destruct ad; [assumption|contradiction].
Qed.

Section Total.
  Context {K : Type} (kz : K) (kadd kmul : K -> K -> K) (kconj : K -> K) (kscal : R -> K -> K).
  Variable errorfct : K -> list K -> nat -> result K.
  Variable adapt : R -> K -> K -> R.
  Variables (E : list (list K)) (os ntaps trsyms : nat) (symbols : list (list K)).
  Notation exec := (exec kz kadd kmul kconj kscal errorfct adapt E os ntaps trsyms symbols).
  Notation run := (run kz kadd kmul kconj kscal errorfct adapt E os ntaps trsyms symbols).
  Variables (p l niter : nat).
  Hypothesis HE : shape E p l.
  Hypothesis Hsy : length symbols = p.
  Hypothesis Hwin : forall i, i < trsyms -> i * os + ntaps <= l.

  Definition inv (s : state (K := K)) : Prop :=
    shape3 (s_wx s) p p ntaps /\ shape (s_err s) p (trsyms * niter).
  Lemma tap_update_ok mu e w X q t : shape w q t -> shape X q t ->
    exists w', tap_update kadd kmul kconj kscal mu e w X = Ok w' /\ shape w' q t.
  Proof.
    intros [Hwl Hw] [HXl HX]. unfold tap_update. unfold rect in *. rewrite Forall_forall in Hw, HX.
    set (f := fun p0 : list K * list K => map (fun q0 : K * K => kadd (fst q0) (kmul (kscal mu e) (kconj (snd q0))))
                                            (combine (fst p0) (snd p0))).
    exists (map f (combine w X)). split.
    - apply mapM_ok. intros [a b] Hin. pose proof (in_combine_l _ _ _ _ Hin) as Ha.
      pose proof (in_combine_r _ _ _ _ Hin) as Hb. cbn [fst snd].
      rewrite (Hw a Ha), (HX b Hb), Nat.eqb_refl. reflexivity.
    - split; [rewrite map_length, combine_length; lia|]. unfold rect. rewrite Forall_forall.
      intros r Hr. apply in_map_iff in Hr as [[a b] [<- Hin]]. unfold f. cbn [fst snd].
      rewrite map_length, combine_length, (Hw a (in_combine_l _ _ _ _ Hin)), (HX b (in_combine_r _ _ _ _ Hin)). lia.
  Qed.
  Lemma err_index it i : it < niter -> i < trsyms -> it * trsyms + i < trsyms * niter.
  Proof. intros. nia. Qed.

  Lemma exec_total s m a : inv s -> m < p -> In a (program true niter trsyms) ->
    (forall x i, i < trsyms -> exists e, errorfct x (nth m symbols []) i = Ok e) ->
    exists s', exec s m a = Ok s' /\ inv s'.
  Proof.
    intros [Hw He] Hm Ha Hf. apply program_in in Ha. destruct a as [it i|it i|it i]; cbn [Equaliser.exec].
    - destruct Ha as [Hit Hi]. pose proof (window_shape E p l (i * os) ntaps HE (Hwin i Hi)) as HX.
      pose proof (shape3_nth _ _ _ _ m Hw Hm) as Hwm.
      rewrite (getn_nth (s_wx s) m []) by (destruct Hw; lia). cbn [bind].
      rewrite (apply_filter_ok kz kadd kmul _ _ p ntaps HX Hwm). cbn [bind].
      rewrite (getn_nth symbols m []) by lia. cbn [bind].
      destruct (Hf (fsum kz kadd kmul (window E (i * os) ntaps) (nth m (s_wx s) []) p ntaps) i Hi) as [e ->].
      cbn [bind].
      destruct He as [Hel Her]. rewrite (getn_nth (s_err s) m []) by lia. cbn [bind].
      pose proof (rect_in _ _ m Her ltac:(lia)) as Hr.
      rewrite (getn_nth _ (it * trsyms + i) kz) by (rewrite Hr; now apply err_index). cbn [bind].
      destruct (tap_update_ok (s_mu s) e _ _ p ntaps Hwm HX) as [w' [-> Hw']]. cbn [bind].
      eexists. split; [reflexivity|]. split; cbn [s_wx s_err].
      + destruct Hw as [Hwl Hw]. split; [now rewrite upd_length|]. now apply upd_Forall.
      + split; [now rewrite upd_length|]. apply upd_Forall; [assumption|]. now rewrite upd_length.
    - eexists. split; [reflexivity|]. now split.
    - destruct Ha as (Hit & Hi & Hi0). destruct He as [Hel Her].
      rewrite (getn_nth (s_err s) m []) by lia. cbn [bind].
      pose proof (rect_in _ _ m Her ltac:(lia)) as Hr.
      assert (Hx : it * trsyms + i < length (nth m (s_err s) [])) by (rewrite Hr; now apply err_index).
      rewrite (getn_nth _ (it * trsyms + i) kz) by assumption. cbn [bind].
      rewrite (getn_nth _ (it * trsyms + i - 1) kz) by lia. cbn [bind].
      eexists. split; [reflexivity|]. split; [assumption|]. now split.
  Qed.
  Lemma run_total sched : forall s, inv s ->
    (forall e, In e sched -> fst e < p /\ In (snd e) (program true niter trsyms) /\
       forall x i, i < trsyms -> exists y, errorfct x (nth (fst e) symbols []) i = Ok y) ->
    exists s', run s sched = Ok s' /\ inv s'.
  Proof.
    induction sched as [|[m a] sched IH]; intros s Hs Hall; [now exists s|]. cbn [Equaliser.run].
    destruct (Hall (m, a) (or_introl eq_refl)) as (Hm & Ha & Hf). cbn [fst snd] in *.
    destruct (exec_total s m a Hs Hm Ha Hf) as [s1 [-> Hs1]]. cbn [bind]. apply IH; [assumption|].
    intros e He. apply Hall. now right.
  Qed.
  Lemma start_inv mu wx : shape3 wx p p ntaps -> inv (start kz E trsyms niter mu wx).
  Proof.
    intros Hw. split; [assumption|]. unfold start. cbn [s_err]. split.
    - rewrite repeat_length. destruct HE. assumption.
    - unfold rect. rewrite Forall_forall. intros r Hr. apply repeat_spec in Hr. subst. apply repeat_length.
  Qed.
  Lemma train_total mu wx ad modes sched : shape3 wx p p ntaps -> Forall (fun m => m < p) modes ->
    (forall m x i, In m modes -> i < trsyms -> exists y, errorfct x (nth m symbols []) i = Ok y) ->
    interleaving modes (program ad niter trsyms) sched ->
    exists s', run (start kz E trsyms niter mu wx) sched = Ok s' /\ inv s'.
  Proof.
    intros Hw Hm Hf Hi. apply run_total; [now apply start_inv|]. intros e He.
    pose proof (proj2 (proj2 Hi) e He) as Hin. rewrite Forall_forall in Hm.
    split; [now apply Hm|]. split; [|intros x i; now apply Hf].
    apply (program_true ad). now apply (interleaving_in modes _ sched).
  Qed.
End Total.

(** ** C52 *)
Section Indep.
  Context {K : Type} (kz : K) (kadd kmul : K -> K -> K) (kconj : K -> K) (kscal : R -> K -> K).
  Variable errorfct : K -> list K -> nat -> result K.
  Variable adapt : R -> K -> K -> R.
  Variables (E : list (list K)) (os ntaps trsyms : nat) (symbols : list (list K)).
  Notation run := (run kz kadd kmul kconj kscal errorfct adapt E os ntaps trsyms symbols).

  Lemma sched_comp modes niter sched : interleaving modes (program false niter trsyms) sched ->
    forall e, In e sched -> is_comp (snd e).
  Proof. intros Hi e He. apply (program_comp niter trsyms). now apply (interleaving_in modes _ sched). Qed.

  Lemma indep modes niter sched st st' : interleaving modes (program false niter trsyms) sched ->
    run st sched = Ok st' ->
    (forall m, ~ In m modes -> nth_error (s_wx st') m = nth_error (s_wx st) m) /\
    (forall m, In m modes -> exists st1, run st (one_by_one trsyms false niter [m]) = Ok st1 /\
       nth_error (s_wx st1) m = nth_error (s_wx st') m /\ nth_error (s_err st1) m = nth_error (s_err st') m) /\
    s_mu st' = s_mu st.
  Proof.
    intros Hi Hr. pose proof (sched_comp modes niter sched Hi) as Hc. split; [|split].
    - intros m Hm. apply (run_other _ _ _ _ _ _ _ _ _ _ _ _ sched st st' m Hr). intros e He Hem.
      apply Hm. rewrite <- Hem. now apply (proj2 (proj2 Hi)).
    - intros m Hm. assert (Hs : same m st st) by (repeat split; reflexivity).
      destruct (run_filter kz kadd kmul kconj kscal errorfct adapt E os ntaps trsyms symbols sched m st st' st Hr Hs Hc)
        as [t [Ht (A & B & _)]].
      rewrite (proj1 (proj2 Hi) m Hm) in Ht. exists t. rewrite one_by_one_single. repeat split; [assumption|congruence|congruence].
    - now apply (run_mu kz kadd kmul kconj kscal errorfct adapt E os ntaps trsyms symbols sched st st').
  Qed.
  (** the interleaving fails exactly when one of the modes alone fails *)
  Lemma indep_exists modes niter sched st : interleaving modes (program false niter trsyms) sched ->
    (forall m, In m modes -> exists st1, run st (one_by_one trsyms false niter [m]) = Ok st1) ->
    exists st', run st sched = Ok st'.
  Proof.
    intros Hi H. apply run_exists; [now apply (sched_comp modes niter)|]. intros m Hm.
    apply in_map_iff in Hm as [e [<- He]]. pose proof (proj2 (proj2 Hi) e He) as Hin.
    rewrite (proj1 (proj2 Hi) _ Hin). destruct (H _ Hin) as [t Ht]. exists t.
    now rewrite <- one_by_one_single.
  Qed.
End Indep.
