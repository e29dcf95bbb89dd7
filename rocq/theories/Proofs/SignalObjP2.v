From Coq Require Import String List Arith Bool Lia.
From Verif Require Import Common.Py Common.ListX Model.SignalObj Spec.SignalObjS Proofs.SignalObjP.
Import ListNotations.
Open Scope string_scope.
Open Scope list_scope.

Section Objects.
Context {D : Type}.
Notation val := (val D). Notation cell := (cell D). Notation heap := (heap D).

(** ** constructors *)
Definition nd (data : list (list D)) : cell := {| c_cls := NDArray; c_data := data; c_attrs := [] |}.
Lemma nd_ok (h : heap) data : heap_ok h -> heap_ok (h ++ [nd data]).
Proof.
  intros K. apply heap_ok_snoc; [exact K| |].
  - split; [discriminate|]. split; [intros a []|discriminate].
  - intros P. discriminate P.
Qed.
Lemma fresh_spec (h : heap) c data l : heap_ok h -> is_signal c = true -> NoDup (map fst l) ->
  exists d, fresh h c data l = Ok ((h ++ [nd data]) ++ [d], S (length h)) /\ c_cls d = c /\ c_data d = data /\
    forall a, lookup a (c_attrs d) = match lookup a l with Some v => Some v | None => if in_dec string_dec a (attributes c) then Some VNone else None end.
Proof.
  intros K S ND. pose proof (nd_ok h data K) as K0.
  destruct (alloc_ok (h ++ [nd data]) c data (length h) (nd data) (ok_ok0 _ K0) (nth_new h (nd data)) S) as (l0 & E0 & L0).
  unfold fresh. fold (nd data). rewrite E0. cbn [bind fst snd].
  set (h0 := h ++ [nd data]). set (d0 := {| c_cls := c; c_data := data; c_attrs := l0 |}).
  assert (Ln : length h0 = Datatypes.S (length h)) by (unfold h0; rewrite app_length; cbn [length]; lia).
  assert (GA : forall a, getattr h0 (length h) a = Err AttributeError).
  { intros a. apply (getattr_absent h0 (length h) (nd data) a); [apply nth_new|reflexivity|discriminate]. }
  assert (L0' : forall a, lookup a l0 = if in_dec string_dec a (attributes c) then Some VNone else None).
  { intros a. rewrite L0. fold h0. unfold fin_sym, gn. rewrite !GA. rewrite andb_false_r. reflexivity. }
  assert (SA : forall l (d : cell), NoDup (map fst l) ->
     exists d', setattrs (h0 ++ [d]) (length h0) l = h0 ++ [d'] /\ c_cls d' = c_cls d /\ c_data d' = c_data d /\
       forall a, lookup a (c_attrs d') = match lookup a l with Some v => Some v | None => lookup a (c_attrs d) end).
  { clear. intros l d ND. pose proof (setattrs_props l (h0 ++ [d]) (length h0)) as P.
    destruct P as (A & B & C & E & F); [rewrite app_length; cbn [length]; lia|exact ND|].
    rewrite app_length in A. cbn [length] in A.
    destruct (nth_error (setattrs (h0 ++ [d]) (length h0) l) (length h0)) as [d'|] eqn:N; [|apply nth_error_None in N; lia].
    exists d'. specialize (E (length h0)). specialize (F (length h0)). unfold class_of in E. unfold samples_of in F. rewrite N, nth_new in E, F.
    cbn [option_map] in E, F. injection E as E. injection F as F. split; [|split; [exact E|split; [exact F|]]].
    - apply nth_error_ext_lt; [rewrite app_length; cbn [length]; exact A|].
      intros i Li. rewrite A in Li. destruct (Nat.eq_dec i (length h0)) as [->|Ni]; [rewrite N, nth_new; reflexivity|].
      rewrite (C i Ni), !nth_error_app1 by lia. reflexivity.
    - intros a. specialize (B a). unfold attr in B. rewrite N, nth_new in B. exact B. }
  destruct (SA l d0 ND) as (d & Ed & Cd & Dd & Ad).
  exists d. split; [rewrite Ed, Ln; reflexivity|]. split; [exact Cd|]. split; [exact Dd|].
  intros a. rewrite Ad. destruct (lookup a l); [reflexivity|]. cbn [c_attrs d0]. apply L0'.
Qed.
Lemma lookup_in (l : list (string * val)) a v : lookup a l = Some v -> In (a, v) l.
Proof.
  induction l as [|[b w] l IH]; [discriminate|]. cbn [lookup]. destruct (b =? a)%string eqn:Q.
  - intros H. injection H as ->. apply String.eqb_eq in Q. subst. left. reflexivity.
  - intros H. right. exact (IH H).
Qed.
(** objects that get reference symbols, if any, from outside *)
Lemma fresh_ok (h : heap) c data l : heap_ok h -> is_signal c = true -> NoDup (map fst l) ->
  (forall a r, In (a, VRef r) l -> r < length h) ->
  (In "_symbols" (attributes c) -> lookup "_symbols" l <> None) -> lookup "_symbols" l <> Some VNone ->
  (c = WithPilots -> forall s, lookup "_symbols" l = Some (VRef s) -> class_of h s <> Some WithPilots) ->
  exists h', fresh h c data l = Ok (h', S (length h)) /\ heap_ok h' /\ no_self h' (S (length h)) /\
    class_of h' (S (length h)) = Some c /\ samples_of h' (S (length h)) = Some data /\
    (forall a, In a (attributes c) -> attr h' (S (length h)) a = match lookup a l with Some v => Some v | None => Some VNone end) /\
    (forall a v, lookup a l = Some v -> attr h' (S (length h)) a = Some v) /\
    (forall i, i < length h -> nth_error h' i = nth_error h i).
Proof.
  intros K S ND R I1 I2 I3. destruct (fresh_spec h c data l K S ND) as (d & E & C & Dd & A).
  set (h0 := h ++ [nd data]) in *. assert (Ln : length h0 = Datatypes.S (length h)) by (unfold h0; rewrite app_length; cbn [length]; lia).
  assert (N : nth_error (h0 ++ [d]) (Datatypes.S (length h)) = Some d) by (rewrite <- Ln; apply nth_new).
  assert (R' : forall a r, lookup a (c_attrs d) = Some (VRef r) -> r < length h).
  { intros a r H. rewrite A in H. destruct (lookup a l) as [v|] eqn:V.
    - injection H as ->. apply (R a r). exact (lookup_in l a _ V).
    - destruct (in_dec string_dec a (attributes c)); discriminate. }
  exists (h0 ++ [d]). split; [exact E|]. split; [|split; [|split; [|split; [|split; [|split]]]]].
  - apply heap_ok_snoc; [exact (nd_ok h data K)| |].
    + split; [|split].
      * intros a r H. specialize (R' a r H). rewrite Ln. lia.
      * rewrite C. intros a I. rewrite A. destruct (lookup a l); [discriminate|]. destruct (in_dec string_dec a (attributes c)); [discriminate|contradiction].
      * rewrite A. destruct (lookup "_symbols" l) as [v|] eqn:V; [exact I2|].
        destruct (in_dec string_dec "_symbols" (attributes c)) as [J|J]; [exfalso; exact (I1 J eq_refl)|discriminate].
    + intros P s e Hs He. rewrite C in P. pose proof (R' _ _ Hs) as Ls. unfold h0 in He. rewrite nth_error_app1 in He by exact Ls.
      assert (Hs' : lookup "_symbols" l = Some (VRef s)).
      { rewrite A in Hs. destruct (lookup "_symbols" l); [exact Hs|]. destruct (in_dec string_dec "_symbols" (attributes c)); discriminate. }
      specialize (I3 P s Hs'). unfold class_of in I3. rewrite He in I3. cbn in I3. intros Q. rewrite Q in I3. contradiction I3. reflexivity.
  - intros a H. unfold attr in H. rewrite N in H. apply R' in H. lia.
  - unfold class_of. rewrite N. cbn. rewrite C. reflexivity.
  - unfold samples_of. rewrite N. cbn. rewrite Dd. reflexivity.
  - intros a I. unfold attr. rewrite N, A. destruct (lookup a l); [reflexivity|]. destruct (in_dec string_dec a (attributes c)); [reflexivity|contradiction].
  - intros a v H. unfold attr. rewrite N, A, H. reflexivity.
  - intros i Li. rewrite nth_error_app1 by lia. unfold h0. rewrite nth_error_app1 by lia. reflexivity.
Qed.
(** objects whose reference symbols are a copy of themselves *)
Lemma own_ok (h : heap) c data l : heap_ok h -> is_signal c = true -> c <> WithPilots -> In "_symbols" (attributes c) -> NoDup (map fst l) ->
  (forall a r, In (a, VRef r) l -> r < length h) -> lookup "_symbols" l = None ->
  exists h', (let! p := fresh h c data l in own_symbols p) = Ok (h', S (length h)) /\ heap_ok h' /\ no_self h' (S (length h)) /\
    class_of h' (S (length h)) = Some c /\ samples_of h' (S (length h)) = Some data /\
    observe h' (S (length h)) ["_symbols"] = Some (SArray c data) /\
    observe h' (S (length h)) ["_symbols"; "_symbols"] = Some (SArray c data) /\
    attr h' (S (length h)) "_symbols" = Some (VRef (S (S (length h)))) /\
    attr h' (S (S (length h))) "_symbols" = Some (VRef (S (length h))) /\
    (forall a, In a (attributes c) -> a <> "_symbols" -> attr h' (S (length h)) a = match lookup a l with Some v => Some v | None => Some VNone end) /\
    (forall i, i < length h -> nth_error h' i = nth_error h i).
Proof.
  intros K S NW I ND R I0. destruct (fresh_spec h c data l K S ND) as (d & E & C & Dd & A). rewrite E. cbn [bind].
  set (h0 := h ++ [nd data]) in *. assert (Ln : length h0 = Datatypes.S (length h)) by (unfold h0; rewrite app_length; cbn [length]; lia).
  pose proof (nd_ok h data K) as K0. fold h0 in K0.
  assert (R' : forall a r, lookup a (c_attrs d) = Some (VRef r) -> r < length h).
  { intros a r H. rewrite A in H. destruct (lookup a l) as [v|] eqn:V.
    - injection H as ->. apply (R a r). exact (lookup_in l a _ V).
    - destruct (in_dec string_dec a (attributes c)); discriminate. }
  assert (N1 : nth_error (h0 ++ [d]) (length h0) = Some d) by apply nth_new.
  assert (K1 : heap_ok0 (h0 ++ [d])).
  { intros i e H. rewrite app_length. cbn [length]. destruct (Nat.lt_ge_cases i (length h0)) as [L|L].
    - rewrite nth_error_app1 in H by exact L. destruct (K0 i e H) as (Q & P). split; [|exact (pilots_ok_app h0 [d] e Q P)].
      destruct Q as (Q1 & Q2 & _). split; [intros a r Hr; specialize (Q1 a r Hr); lia|exact Q2].
    - rewrite nth_error_app2 in H by exact L. destruct (i - length h0) as [|k]; [|destruct k; discriminate H]. injection H as <-. split; [split|].
      + intros a r Hr. specialize (R' a r Hr). lia.
      + rewrite C. intros a J. rewrite A. destruct (lookup a l); [discriminate|]. destruct (in_dec string_dec a (attributes c)); [discriminate|contradiction].
      + intros P. rewrite C in P. contradiction. }
  unfold own_symbols. cbn [fst snd]. rewrite <- Ln, N1. unfold derive. rewrite N1, C.
  destruct (alloc_ok (h0 ++ [d]) c (c_data d) (length h0) d K1 N1 S) as (l1 & E1 & L1). rewrite E1. cbn [bind fst snd].
  assert (Vs : lookup "_symbols" (c_attrs d) = Some VNone).
  { rewrite A, I0. destruct (in_dec string_dec "_symbols" (attributes c)); [reflexivity|contradiction]. }
  assert (Fs : fin_sym (h0 ++ [d]) (length h0) = Some (VRef (length h0))).
  { unfold fin_sym. rewrite (getattr_found _ _ d _ _ N1 Vs). reflexivity. }
  rewrite Fs in L1.
  set (e := {| c_cls := c; c_data := c_data d; c_attrs := l1 |}) in *.
  assert (Ae : forall a, In a (attributes c) -> a <> "_symbols" -> lookup a l1 = lookup a (c_attrs d)).
  { intros a J N. rewrite L1. destruct ("_symbols" =? a)%string eqn:Q; [apply String.eqb_eq in Q; subst; contradiction N; reflexivity|]. cbn [andb].
    destruct (in_dec string_dec a (attributes c)); [|contradiction].
    assert (X : lookup a (c_attrs d) <> None).
    { rewrite A. destruct (lookup a l); [discriminate|]. destruct (in_dec string_dec a (attributes c)); [discriminate|contradiction]. }
    destruct (lookup a (c_attrs d)) as [v|] eqn:V; [|contradiction X; reflexivity].
    unfold gn. rewrite (getattr_found _ _ d a v N1 V). reflexivity. }
  assert (Es : lookup "_symbols" l1 = Some (VRef (length h0))).
  { rewrite L1. reflexivity. }
  assert (En : forall a, ~ In a (attributes c) -> lookup a l1 = None).
  { intros a J. rewrite L1. destruct ("_symbols" =? a)%string eqn:Q; [apply String.eqb_eq in Q; subst; contradiction|]. cbn [andb].
    destruct (in_dec string_dec a (attributes c)); [contradiction|reflexivity]. }
  set (h2 := (h0 ++ [d]) ++ [e]). assert (L2 : length (h0 ++ [d]) = Datatypes.S (length h0)) by (rewrite app_length; cbn [length]; lia).
  rewrite L2. set (h3 := setattr h2 (length h0) "_symbols" (VRef (Datatypes.S (length h0)))).
  assert (Ln2 : length h2 = Datatypes.S (Datatypes.S (length h0))) by (unfold h2; rewrite app_length, L2; cbn [length]; lia).
  assert (Ln3 : length h3 = Datatypes.S (Datatypes.S (length h0))) by (unfold h3; rewrite setattr_length; exact Ln2).
  set (d3 := {| c_cls := c; c_data := data; c_attrs := set_attr "_symbols" (VRef (Datatypes.S (length h0))) (c_attrs d) |}).
  assert (M1 : nth_error h3 (length h0) = Some d3).
  { unfold h3, setattr. rewrite update_nth, Nat.eqb_refl. unfold h2. rewrite nth_error_app1 by lia. rewrite N1. cbn [option_map]. rewrite C, Dd. reflexivity. }
  assert (M2 : nth_error h3 (Datatypes.S (length h0)) = Some e).
  { unfold h3. rewrite setattr_other by lia. unfold h2. rewrite <- L2. apply nth_new. }
  assert (M0 : forall i, i < length h0 -> nth_error h3 i = nth_error h0 i).
  { intros i Li. unfold h3. rewrite setattr_other by lia. unfold h2. rewrite !nth_error_app1 by lia. reflexivity. }
  assert (O : heap_ok h3).
  { intros i f Hf. rewrite Ln3. pose proof (nth_lt _ _ _ Hf) as Li. rewrite Ln3 in Li.
    destruct (Nat.eq_dec i (length h0)) as [->|Ni]; [|destruct (Nat.eq_dec i (Datatypes.S (length h0))) as [->|Nj]].
    - rewrite M1 in Hf. injection Hf as <-. split; [split; [|split]|intros P; contradiction].
      + cbn [c_attrs d3]. intros a r Hr. rewrite lookup_set_attr in Hr. destruct ("_symbols" =? a)%string.
        * injection Hr as <-. lia.
        * specialize (R' a r Hr). lia.
      + cbn [c_attrs c_cls d3]. intros a J. rewrite lookup_set_attr. destruct ("_symbols" =? a)%string; [discriminate|].
        rewrite A. destruct (lookup a l); [discriminate|]. destruct (in_dec string_dec a (attributes c)); [discriminate|contradiction].
      + cbn [c_attrs d3]. rewrite lookup_set_attr. discriminate.
    - rewrite M2 in Hf. injection Hf as <-. split; [split; [|split]|intros P; contradiction].
      + cbn [c_attrs e]. intros a r Hr. destruct (in_dec string_dec a (attributes c)) as [J|J]; [|rewrite (En a J) in Hr; discriminate].
        destruct (string_dec a "_symbols") as [->|N]; [rewrite Es in Hr; injection Hr as <-; lia|].
        rewrite (Ae a J N) in Hr. specialize (R' a r Hr). lia.
      + cbn [c_attrs c_cls e]. intros a J. destruct (string_dec a "_symbols") as [->|N]; [rewrite Es; discriminate|].
        rewrite (Ae a J N), A. destruct (lookup a l); [discriminate|]. destruct (in_dec string_dec a (attributes c)); [discriminate|contradiction].
      + cbn [c_attrs e]. rewrite Es. discriminate.
    - assert (L0 : i < length h0) by lia. rewrite M0 in Hf by exact L0. destruct (K0 i f Hf) as (Q & P). split.
      + apply (cell_ok_mono (length h0)); [lia|exact Q].
      + intros W s g Hs Hg. destruct Q as (Q1 & _). specialize (Q1 _ _ Hs). rewrite M0 in Hg by exact Q1. exact (P W s g Hs Hg). }
  assert (AD : forall a, attr h3 (length h0) a = if ("_symbols" =? a)%string then Some (VRef (Datatypes.S (length h0))) else lookup a (c_attrs d)).
  { intros a. unfold attr. rewrite M1. cbn [c_attrs d3]. apply lookup_set_attr. }
  assert (CD : class_of h3 (length h0) = Some c) by (unfold class_of; rewrite M1; reflexivity).
  assert (CE : class_of h3 (Datatypes.S (length h0)) = Some c) by (unfold class_of; rewrite M2; reflexivity).
  assert (AE : attr h3 (Datatypes.S (length h0)) "_symbols" = Some (VRef (length h0))).
  { unfold attr. rewrite M2. exact Es. }
  exists h3. split; [reflexivity|]. split; [exact O|]. split; [|split; [exact CD|split; [|split; [|split; [|split; [|split; [exact AE|split]]]]]]].
  - intros a H. rewrite AD in H. destruct ("_symbols" =? a)%string; [injection H as H; lia|]. specialize (R' a _ H). lia.
  - unfold samples_of. rewrite M1. reflexivity.
  - rewrite (observe_step h3 _ c _ [] CD). destruct (in_dec string_dec "_symbols" (attributes c)); [|contradiction].
    rewrite AD. change ("_symbols" =? "_symbols")%string with true. cbn iota. cbn [observe]. rewrite M2. cbn [c_cls c_data e]. rewrite Dd. reflexivity.
  - rewrite (observe_step h3 _ c _ _ CD). destruct (in_dec string_dec "_symbols" (attributes c)); [|contradiction].
    rewrite AD. change ("_symbols" =? "_symbols")%string with true. cbn iota. rewrite (observe_step h3 _ c _ [] CE).
    destruct (in_dec string_dec "_symbols" (attributes c)); [|contradiction]. rewrite AE. cbn [observe]. rewrite M1. reflexivity.
  - rewrite AD. reflexivity.
  - intros a J N. rewrite AD. destruct ("_symbols" =? a)%string eqn:Q; [apply String.eqb_eq in Q; subst; contradiction N; reflexivity|].
    rewrite A. destruct (lookup a l); [reflexivity|]. destruct (in_dec string_dec a (attributes c)); [reflexivity|contradiction].
  - intros i Li. rewrite M0 by lia. unfold h0. apply nth_error_app1. exact Li.
Qed.
End Objects.
