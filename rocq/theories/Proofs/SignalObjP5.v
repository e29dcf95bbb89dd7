(** Signal objects: oversampling ratio of recreated signals, examples of resampling ratios. *)
From Coq Require Import String List ZArith QArith Qabs Qround Bool Arith Lia Lqa.
From Verif Require Import Common.Py Model.SignalObj Model.SignalRates Spec.SignalObjS Proofs.SignalObjP.
Import ListNotations.
Open Scope string_scope.
Open Scope list_scope.

Lemma os_exact fs fb (n : Z) : ~ (fb == 0)%Q -> (fs == inject_Z n * fb)%Q -> os_of fs fb = Ok n.
Proof.
  intros H0 E. unfold os_of. destruct (Qeq_bool fb 0) eqn:Q; [apply Qeq_bool_iff in Q; contradiction|]. f_equal.
  assert (E' : (fs / fb == inject_Z n)%Q) by (rewrite E; field; assumption).
  destruct (fs / fb)%Q as [u d]. unfold truncQ, Qeq, inject_Z in *. cbn [Qnum Qden] in *. rewrite Z.mul_1_r in E'. rewrite E'. apply Z.quot_mul. lia.
Qed.
Lemma os_rate_exact {X} fs fb fb' n : ~ (fb == 0)%Q -> (fs == inject_Z n * fb)%Q ->
  os_rate (X := X) (inl fs) (inl fb) (inl fb') = Ok (inl (inject_Z n * fb')%Q).
Proof. intros H0 E. unfold os_rate. rewrite (os_exact fs fb n) by assumption. reflexivity. Qed.
Lemma os_rate_inexact {X} fs fb fb' : ~ (fb == 0)%Q -> ~ (fb' == 0)%Q -> (forall n, ~ (fs == inject_Z n * fb)%Q) ->
  exists r, os_rate (X := X) (inl fs) (inl fb) (inl fb') = Ok (inl r) /\ ~ (r / fb' == fs / fb)%Q.
Proof.
  intros H0 H0' Hn. unfold os_rate, os_of. destruct (Qeq_bool fb 0) eqn:Q; [apply Qeq_bool_iff in Q; contradiction|]. cbn [bind].
  eexists. split; [reflexivity|]. set (n := truncQ (fs / fb)). intros E. apply (Hn n).
  assert (E' : (inject_Z n == fs / fb)%Q) by (rewrite <- E; field; assumption). rewrite E'. field. assumption.
Qed.

Section Objects.
Context {X : Type}.
Notation D := (Q + X)%type.
Notation heap := (heap D).

Lemma recreate_ratio (h : heap) o arr c kw fs fb fb' n : heap_ok h -> is_signal c = true -> class_of h o = Some c -> class_of h arr <> None ->
  attr h o "_fs" = Some (VLeaf (inl fs)) -> attr h o "_fb" = Some (VLeaf (inl fb)) -> ~ (fb == 0)%Q -> (fs == inject_Z n * fb)%Q ->
  lookup "fb" kw = Some (VLeaf (inl fb')) -> lookup "fs" kw = None -> NoDup (map fst kw) ->
  (forall k, In k (map fst kw) -> ~ In k (attributes c)) ->
  (forall k, In k (map fst kw) -> ~ In (append "_" k) (attributes c) -> ~ In k (readonly c)) ->
  exists h', recreate os_rate h o arr kw = Ok (h', length h) /\
    class_of h' (length h) = Some c /\ samples_of h' (length h) = samples_of h arr /\
    attr h' (length h) "_fs" = Some (VLeaf (inl (inject_Z n * fb')%Q)) /\ attr h' (length h) "_fb" = Some (VLeaf (inl fb')) /\
    (forall k, In (append "_" k) (attributes c) -> k <> "fs" ->
       attr h' (length h) (append "_" k) = match lookup k kw with Some v => Some v | None => attr h o (append "_" k) end) /\
    (forall i, (i < length h)%nat -> nth_error h' i = nth_error h i).
Proof.
  intros K Sg C A F B N E Lb Ls ND U RO.
  exact (recreate_rate os_rate h o arr c kw _ _ _ _ K Sg C A F B Lb Ls (os_rate_exact fs fb fb' n N E) ND U RO).
Qed.

Lemma recreate_wrong (h : heap) o arr c fs fb fb' : heap_ok h -> is_signal c = true -> class_of h o = Some c -> class_of h arr <> None ->
  attr h o "_fs" = Some (VLeaf (inl fs)) -> attr h o "_fb" = Some (VLeaf (inl fb)) -> ~ (fb == 0)%Q -> ~ (fb' == 0)%Q ->
  (forall n, ~ (fs == inject_Z n * fb)%Q) ->
  exists h' r, recreate os_rate h o arr [("fb", VLeaf (inl fb'))] = Ok (h', length h) /\
    attr h' (length h) "_fs" = Some (VLeaf (inl r)) /\ attr h' (length h) "_fb" = Some (VLeaf (inl fb')) /\ ~ (r / fb' == fs / fb)%Q.
Proof.
  intros K Sg C A F B N N' Hn. destruct (os_rate_inexact (X := X) fs fb fb' N N' Hn) as (r & Er & Hr).
  assert (U : forall k, In k (map fst ([("fb", VLeaf (inl fb'))] : list (string * val D))) -> ~ In k (attributes c)).
  { intros k [<-|[]] I. destruct c; cbn in I; repeat (destruct I as [I|I]; [discriminate I|]); destruct I. }
  destruct (recreate_rate os_rate h o arr c [("fb", VLeaf (inl fb'))] _ _ _ _ K Sg C A F B eq_refl eq_refl Er) as (h' & E & _ & _ & H1 & H2 & _).
  - repeat constructor. intros [].
  - exact U.
  - intros k [<-|[]] NL. exfalso. apply NL. destruct c; try discriminate Sg; cbn; tauto.
  - exists h', r. auto.
Qed.

End Objects.
