(** Lemmas about hard decisions. *)
From Coq Require Import List ZArith NArith Bool Lia Reals Lra Psatz Arith ZifyNat ZifyN.
From Verif Require Import Common.Py Common.ListX Common.Cplx Model.Gray Model.Constellation Model.Decision.
Import ListNotations.
Local Open Scope R_scope.

Definition is_argmin (l : list R) (i : nat) (d : R) : Prop :=
  nth_error l i = Some d /\
  (forall j d', nth_error l j = Some d' -> d <= d') /\
  (forall j d', (j < i)%nat -> nth_error l j = Some d' -> d < d').

Lemma argmin_from_spec l : forall best bi i pre,
  length pre = i -> is_argmin pre bi best ->
  exists d, is_argmin (pre ++ l) (argmin_from best bi i l) d.
Proof.
  induction l as [|d l IH]; intros best bi i pre Hl Hp; cbn [argmin_from].
  - exists best; rewrite app_nil_r; exact Hp.
  - destruct Hp as [Hn [Hle Hlt]].
    assert (Hbi : (bi < length pre)%nat) by (eapply nth_error_Some_lt; eassumption).
    replace (pre ++ d :: l) with ((pre ++ [d]) ++ l) by (rewrite <- app_assoc; reflexivity).
    destruct (Rlt_dec d best) as [Hd|Hd]; apply IH; try (rewrite app_length; cbn [length]; lia).
    + split; [rewrite nth_error_app2 by lia; replace (i - length pre)%nat with 0%nat by lia; reflexivity|]. split.
      * intros j d' Hj. destruct (Nat.lt_ge_cases j (length pre)) as [Hjl|Hjl].
        -- rewrite nth_error_app1 in Hj by assumption. specialize (Hle _ _ Hj); lra.
        -- rewrite nth_error_app2 in Hj by assumption.
           destruct (j - length pre)%nat as [|m]; cbn in Hj; [injection Hj as <-; lra|destruct m; discriminate].
      * intros j d' Hji Hj. rewrite nth_error_app1 in Hj by lia. specialize (Hle _ _ Hj); lra.
    + split; [rewrite nth_error_app1 by lia; exact Hn|]. split.
      * intros j d' Hj. destruct (Nat.lt_ge_cases j (length pre)) as [Hjl|Hjl].
        -- rewrite nth_error_app1 in Hj by assumption. eauto.
        -- rewrite nth_error_app2 in Hj by assumption.
           destruct (j - length pre)%nat as [|m]; cbn in Hj; [injection Hj as <-; lra|destruct m; discriminate].
      * intros j d' Hji Hj. rewrite nth_error_app1 in Hj by lia. eauto.
Qed.

Lemma argmin_spec l i : argmin l = Ok i -> exists d, is_argmin l i d.
Proof.
  destruct l as [|d l]; cbn [argmin]; intros H; [discriminate|]. injection H as <-.
  apply (argmin_from_spec l d 0 1 [d]); [reflexivity|]. split; [reflexivity|]. split.
  - intros [|[|j]] d' H; try discriminate. injection H as <-; lra.
  - intros j d' H; lia.
Qed.

Lemma argmin_ok l : l <> [] -> exists i, argmin l = Ok i.
Proof. destruct l; [congruence|]; intros _; eexists; reflexivity. Qed.

Lemma is_argmin_unique l i d j d' : is_argmin l i d -> is_argmin l j d' -> i = j.
Proof.
  intros [H1 [H2 H3]] [K1 [K2 K3]].
  destruct (Nat.lt_trichotomy i j) as [H|[H|H]]; [|assumption|].
  - specialize (K3 _ _ H H1); specialize (H2 _ _ K1); lra.
  - specialize (H3 _ _ H K1); specialize (K2 _ _ H1); lra.
Qed.

Lemma argmin_iff l i : argmin l = Ok i <-> exists d, is_argmin l i d.
Proof.
  split; [apply argmin_spec|]. intros [d H].
  destruct (argmin_ok l) as [j Hj].
  { destruct H as [H _]; intros ->; destruct i; discriminate. }
  destruct (argmin_spec l j Hj) as [d' H']. rewrite (is_argmin_unique _ _ _ _ _ H H'); assumption.
Qed.

(** full description of one decision *)
Lemma det_symbol_argmin_spec x symbs :
  symbs <> [] ->
  exists s d i, det_symbol_argmin x symbs = Ok (s, d, i) /\
    nth_error symbs i = Some s /\ d = Cabs (x - s)%C /\
    (forall j t, nth_error symbs j = Some t -> Cabs (x - s)%C <= Cabs (x - t)%C) /\
    (forall j t, (j < i)%nat -> nth_error symbs j = Some t -> Cabs (x - s)%C < Cabs (x - t)%C).
Proof.
  intros Hne; unfold det_symbol_argmin.
  set (dist := map (fun s => Cabs (x - s)%C) symbs).
  destruct (argmin_ok dist) as [i Hi]; [destruct symbs; [congruence|discriminate]|].
  rewrite Hi; cbn [bind]. destruct (argmin_spec _ _ Hi) as [d [Hd [Hle Hlt]]].
  unfold dist in Hd; rewrite nth_error_map in Hd.
  destruct (nth_error symbs i) as [s|] eqn:Es; [|discriminate]. cbn in Hd; injection Hd as Hd.
  unfold getn. rewrite Es; cbn [bind]. unfold dist at 1; rewrite nth_error_map, Es; cbn [option_map bind].
  exists s, (Cabs (x - s)%C), i; repeat split; auto.
  - intros j t Ht; rewrite Hd; eapply Hle with (j := j). unfold dist; rewrite nth_error_map, Ht; reflexivity.
  - intros j t Hj Ht; rewrite Hd; eapply Hlt with (j := j); [assumption|].
    unfold dist; rewrite nth_error_map, Ht; reflexivity.
Qed.

Lemma Csub_diag a : (a - a)%C = C0.
Proof. cring. Qed.
Lemma Csub_eq0 a b : (a - b)%C = C0 -> a = b.
Proof. intros H; injection H as H1 H2; apply C_eq; lra. Qed.

Lemma det_symbol_argmin_point symbs a s :
  NoDup symbs -> nth_error symbs a = Some s -> det_symbol_argmin s symbs = Ok (s, 0, a).
Proof.
  intros Hnd Ha.
  destruct (det_symbol_argmin_spec s symbs) as [t [d [i [H [Hi [Hd [Hle _]]]]]]].
  { intros ->; destruct a; discriminate. }
  specialize (Hle a s Ha). rewrite Csub_diag in Hle.
  assert (Cabs C0 = 0) by (apply Cabs_0; reflexivity).
  assert (Cabs (s - t)%C = 0) by (pose proof (Cabs_nonneg (s - t)%C); lra).
  apply Cabs_0, Csub_eq0 in H1; subst t.
  rewrite (NoDup_nth_error_inj symbs i a s Hnd Hi Ha) in H.
  rewrite H, Hd, Csub_diag, H0; reflexivity.
Qed.
