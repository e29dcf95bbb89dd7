From Coq Require Import String List Arith Bool Lia.
From Verif Require Import Common.Py Common.ListX Model.SignalObj Spec.SignalObjS Proofs.SignalObjP Proofs.SignalObjP2.
Import ListNotations.
Open Scope string_scope.
Open Scope list_scope.

Section Objects.
Context {D : Type}.
Notation val := (val D). Notation cell := (cell D). Notation heap := (heap D).

(** ** resample *)
Lemma pilots_attributes c c' : attributes c' = attributes c -> c' = WithPilots -> c = WithPilots.
Proof. intros E ->. destruct c; try discriminate E. reflexivity. Qed.
Lemma resample_array_ok (h : heap) c c' o data : heap_ok h -> is_signal c = true -> class_of h o = Some c ->
  is_signal c' = true -> attributes c' = attributes c ->
  exists h1, resample_array h c' o data = Ok (h1, S (length h)) /\ heap_ok h1 /\ length h1 = S (S (length h)) /\
    class_of h1 (S (length h)) = Some c' /\ samples_of h1 (S (length h)) = Some data /\
    (forall a, In a (attributes c) -> attr h1 (S (length h)) a = attr h o a) /\
    (forall a, ~ In a (attributes c) -> attr h1 (S (length h)) a = None) /\
    (forall i, i < length h -> nth_error h1 i = nth_error h i).
Proof.
  intros K S H S' EA. pose proof (nd_ok h data K) as K0. destruct (class_nth h o c H) as (e & He & Ce). pose proof (nth_lt h o e He) as Lo.
  unfold resample_array. fold (nd data). set (h0 := h ++ [nd data]) in *.
  assert (Ln : length h0 = Datatypes.S (length h)) by (unfold h0; rewrite app_length; cbn [length]; lia).
  destruct (alloc_ok h0 c' data (length h) (nd data) (ok_ok0 _ K0) (nth_new h (nd data)) S') as (l0 & E0 & L0).
  rewrite E0. cbn [bind fst snd]. rewrite Ln. set (d0 := {| c_cls := c'; c_data := data; c_attrs := l0 |}).
  assert (GA : forall a, getattr h0 (length h) a = Err AttributeError).
  { intros a. apply (getattr_absent h0 (length h) (nd data) a); [apply nth_new|reflexivity|discriminate]. }
  assert (L0' : forall a, ~ In a (attributes c) -> lookup a l0 = None).
  { intros a I. rewrite L0. unfold fin_sym. rewrite GA, andb_false_r. rewrite EA. destruct (in_dec string_dec a (attributes c)); [contradiction|reflexivity]. }
  assert (He2 : nth_error (h0 ++ [d0]) o = Some e).
  { rewrite nth_error_app1 by lia. unfold h0. rewrite nth_error_app1 by lia. exact He. }
  destruct (K o e He) as ((Q1 & Q2 & Q3) & Q4). rewrite Ce in Q2.
  destruct (copy_inherits_ok (h0 ++ [d0]) o (length h0) c) as (h1 & E1 & Ln1 & A1 & B1 & C1 & F1 & G1).
  { intros a I. rewrite (attr_nth _ o e a He2). exact (Q2 a I). }
  { exact S. }
  { unfold class_of. rewrite He2. cbn. rewrite Ce. reflexivity. }
  { rewrite app_length. cbn [length]. lia. }
  rewrite Ln in E1. rewrite E1. cbn [bind]. rewrite app_length in Ln1. cbn [length] in Ln1.
  assert (Cn : class_of h1 (Datatypes.S (length h)) = Some c').
  { rewrite F1, <- Ln. unfold class_of. rewrite nth_new. reflexivity. }
  assert (Sn : samples_of h1 (Datatypes.S (length h)) = Some data).
  { rewrite G1, <- Ln. unfold samples_of. rewrite nth_new. reflexivity. }
  assert (An : forall a, In a (attributes c) -> attr h1 (Datatypes.S (length h)) a = attr h o a).
  { intros a I. rewrite <- Ln, (A1 a I), (attr_nth _ o e a He2), (attr_nth h o e a He). reflexivity. }
  assert (Bn : forall a, ~ In a (attributes c) -> attr h1 (Datatypes.S (length h)) a = None).
  { intros a I. rewrite <- Ln, (B1 a I). unfold attr. rewrite nth_new. exact (L0' a I). }
  assert (M0 : forall i, i < length h0 -> nth_error h1 i = nth_error h0 i).
  { intros i Li. rewrite C1 by lia. apply nth_error_app1. exact Li. }
  exists h1. split; [reflexivity|]. split; [|split; [lia|split; [exact Cn|split; [exact Sn|split; [exact An|split; [exact Bn|]]]]]].
  2:{ intros i Li. rewrite M0 by lia. unfold h0. apply nth_error_app1. exact Li. }
  intros i f Hf. pose proof (nth_lt _ _ _ Hf) as Li. destruct (Nat.eq_dec i (Datatypes.S (length h))) as [->|Ni].
  - assert (At : forall a, attr h1 (Datatypes.S (length h)) a = lookup a (c_attrs f)) by (intros a; exact (attr_nth h1 _ f a Hf)).
    unfold class_of in Cn. rewrite Hf in Cn. cbn in Cn. injection Cn as Cn.
    assert (Rf : forall a r, lookup a (c_attrs f) = Some (VRef r) -> lookup a (c_attrs e) = Some (VRef r)).
    { intros a r Hr. rewrite <- At in Hr. destruct (in_dec string_dec a (attributes c)) as [I|I]; [|rewrite (Bn a I) in Hr; discriminate].
      rewrite (An a I), (attr_nth h o e a He) in Hr. exact Hr. }
    split; [split; [|split]|].
    + intros a r Hr. specialize (Q1 a r (Rf a r Hr)). lia.
    + rewrite Cn, EA. intros a I. rewrite <- At, (An a I), (attr_nth h o e a He). exact (Q2 a I).
    + rewrite <- At. destruct (in_dec string_dec "_symbols" (attributes c)) as [I|I]; [rewrite (An _ I), (attr_nth h o e _ He); exact Q3|rewrite (Bn _ I); discriminate].
    + intros W s g Hs Hg. rewrite Cn in W. apply (pilots_attributes c c' EA) in W. rewrite <- Ce in W.
      pose proof (Q1 _ _ (Rf _ _ Hs)) as Ls. rewrite M0 in Hg by lia. unfold h0 in Hg. rewrite nth_error_app1 in Hg by exact Ls.
      exact (Q4 W s g (Rf _ _ Hs) Hg).
  - assert (L0i : i < length h0) by lia. rewrite M0 in Hf by exact L0i. destruct (K0 i f Hf) as (Q & P). split.
    + apply (cell_ok_mono (length h0)); [lia|exact Q].
    + intros W s g Hs Hg. destruct Q as (Q1' & _). specialize (Q1' _ _ Hs). rewrite M0 in Hg by exact Q1'. exact (P W s g Hs Hg).
Qed.
Lemma derive_old (h : heap) o data h' n : derive h o data = Ok (h', n) -> n = length h /\ forall i, i < length h -> nth_error h' i = nth_error h i.
Proof.
  unfold derive, alloc. destruct (nth_error h o) as [c|]; [|discriminate].
  destruct (finalize h (c_cls c) (Some o)) as [l|]; [|discriminate]. cbn [bind]. intros H. injection H as <- <-.
  split; [reflexivity|]. intros i Li. apply nth_error_app1. exact Li.
Qed.
(** the first half of the two branches *)
Lemma resampled_part (h : heap) c c' o own data : heap_ok h -> is_signal c = true -> class_of h o = Some c ->
  is_signal c' = true -> attributes c' = attributes c -> (own = true -> c' = c) ->
  exists h1 n, (match nth_error h o with None => Err IndexError | Some e => if own then derive h o (c_data e) else resample_array h c' o data end) = Ok (h1, n) /\
    length h <= n /\ n < length h1 /\ heap_ok h1 /\ class_of h1 n = Some c' /\
    samples_of h1 n = (if own then samples_of h o else Some data) /\
    (forall a, In a (attributes c) -> attr h1 n a = attr h o a) /\ no_self h1 n /\
    (forall i, i < length h -> nth_error h1 i = nth_error h i).
Proof.
  intros K S H S' EA EC. destruct (class_nth h o c H) as (e & He & Ce). rewrite He. destruct own.
  - destruct (derive_observe h o c (c_data e) K S H) as (h1 & E & K1 & C1 & Sm & A & _ & NS).
    exists h1, (length h). rewrite (EC eq_refl). destruct (derive_old h o _ h1 _ E) as (_ & O).
    split; [exact E|]. split; [lia|]. split.
    { destruct (class_nth h1 _ c C1) as (x & Hx & _). exact (nth_lt _ _ _ Hx). }
    repeat (split; [assumption|]). split; [unfold samples_of in *; rewrite He; exact Sm|]. repeat (split; [assumption|]). exact O.
  - destruct (resample_array_ok h c c' o data K S H S' EA) as (h1 & E & K1 & Ln & C1 & Sm & A & B & O).
    exists h1, (Datatypes.S (length h)). split; [exact E|]. split; [lia|]. split; [lia|]. repeat (split; [assumption|]). split; [|exact O].
    intros a Ha. destruct (in_dec string_dec a (attributes c)) as [I|I]; [|rewrite (B a I) in Ha; discriminate].
    rewrite (A a I) in Ha. apply (attr_ref_lt h o a _ K) in Ha. lia.
Qed.
Lemma resample_ok (h : heap) c o own data fnew s cs : heap_ok h -> is_signal c = true -> class_of h o = Some c ->
  In "_symbols" (attributes c) -> attr h o "_symbols" = Some (VRef s) -> class_of h s = Some cs -> is_signal cs = true ->
  exists h' n, resample h o own data fnew = Ok (h', n) /\
    class_of h' n = Some c /\ samples_of h' n = (if own then samples_of h o else Some data) /\
    attr h' n "_fs" = Some (VLeaf fnew) /\
    (exists s', attr h' n "_symbols" = Some (VRef s') /\ class_of h' s' = Some cs /\ samples_of h' s' = samples_of h s /\
       (forall i, i < length h -> s' <> i) /\ forall a, In a (attributes cs) -> attr h' s' a = attr h s a) /\
    (forall a, In a (attributes c) -> a <> "_fs" -> a <> "_symbols" -> attr h' n a = attr h o a) /\
    (forall i, i < length h -> nth_error h' i = nth_error h i).
Proof.
  intros K S H I As Cs Ss. destruct (class_nth h o c H) as (e & He & Ce). pose proof (nth_lt h o e He) as Lo.
  destruct (resampled_part h c c o own data K S H S eq_refl (fun _ => eq_refl)) as (h1 & n & E & Ln & Ln1 & K1 & C1 & Sm & A & NS & O).
  rewrite He in E. unfold resample. rewrite He, Ce, E. cbn [bind fst snd].
  assert (He1 : nth_error h1 o = Some e) by (rewrite O by exact Lo; exact He).
  rewrite (attr_nth h o e _ He) in As. rewrite (getattr_found h1 o e _ _ He1 As). cbn [bind].
  destruct (class_nth h s cs Cs) as (f & Hf & Cf). pose proof (nth_lt h s f Hf) as Ls.
  assert (Hf1 : nth_error h1 s = Some f) by (rewrite O by exact Ls; exact Hf). rewrite Hf1.
  assert (Cs1 : class_of h1 s = Some cs) by (unfold class_of; rewrite Hf1; cbn; rewrite Cf; reflexivity).
  destruct (derive_observe h1 s cs (c_data f) K1 Ss Cs1) as (h2 & E2 & K2 & C2 & Sm2 & A2 & _ & _). rewrite E2. cbn [bind fst snd].
  destruct (derive_old h1 s _ h2 _ E2) as (_ & O2).
  assert (L2 : length h1 < length h2) by (destruct (class_nth h2 _ cs C2) as (x & Hx & _); exact (nth_lt _ _ _ Hx)).
  destruct (setattrs_props [("_symbols", VRef (length h1)); ("_fs", VLeaf fnew)] h2 n) as (P1 & P2 & P3 & P4 & P5); [lia| |].
  { repeat constructor; cbn; intuition discriminate. }
  set (h3 := setattrs h2 n [("_symbols", VRef (length h1)); ("_fs", VLeaf fnew)]) in *.
  exists h3, n. split; [reflexivity|]. split; [|split; [|split; [|split; [|split]]]].
  - rewrite P4. unfold class_of. rewrite O2 by exact Ln1. exact C1.
  - rewrite P5. unfold samples_of in *. rewrite O2 by exact Ln1. exact Sm.
  - rewrite P2. reflexivity.
  - exists (length h1). split; [rewrite P2; reflexivity|]. split; [rewrite P4; exact C2|]. split; [|split].
    + rewrite P5. unfold samples_of in *. rewrite Sm2, Hf. reflexivity.
    + intros i Li. lia.
    + intros a Ia. unfold attr. rewrite P3 by lia. fold (attr h2 (length h1) a). rewrite (A2 a Ia), (attr_nth h1 s f a Hf1), Hf. reflexivity.
  - intros a Ia N1 N2. rewrite P2. cbn [lookup].
    destruct ("_symbols" =? a)%string eqn:Q1; [apply String.eqb_eq in Q1; subst; contradiction N2; reflexivity|].
    destruct ("_fs" =? a)%string eqn:Q2; [apply String.eqb_eq in Q2; subst; contradiction N1; reflexivity|].
    unfold attr. rewrite O2 by exact Ln1. exact (A a Ia).
  - intros i Li. rewrite P3 by lia. rewrite O2 by lia. exact (O i Li).
Qed.
Lemma resample_no_symbols (h : heap) o own data fnew : heap_ok h -> class_of h o = Some TDHQAM -> attr h o "_symbols" = None ->
  resample h o own data fnew = Err AttributeError.
Proof.
  intros K H As. destruct (class_nth h o _ H) as (e & He & Ce). pose proof (nth_lt h o e He) as Lo.
  destruct (resampled_part h TDHQAM TDHQAM o own data K eq_refl H eq_refl eq_refl (fun _ => eq_refl)) as (h1 & n & E & Ln & Ln1 & K1 & C1 & Sm & A & NS & O).
  rewrite He in E. unfold resample. rewrite He, Ce, E. cbn [bind fst snd].
  assert (He1 : nth_error h1 o = Some e) by (rewrite O by exact Lo; exact He).
  rewrite (attr_nth h o e _ He) in As. rewrite (getattr_absent h1 o e _ He1 As); [reflexivity|]. rewrite Ce. discriminate.
Qed.
Lemma resampled_ok (h : heap) o own data fs : heap_ok h -> class_of h o = Some Resampled ->
  exists h' n, resampled_new h o own data fs = Ok (h', n) /\ class_of h' n = Some Resampled /\
    samples_of h' n = (if own then samples_of h o else Some data) /\ attr h' n "_fs" = Some (VLeaf fs) /\
    (forall a, In a (attributes Resampled) -> a <> "_fs" -> attr h' n a = attr h o a).
Proof.
  intros K H. destruct (class_nth h o _ H) as (e & He & Ce).
  destruct (resampled_part h Resampled Resampled o own data K eq_refl H eq_refl eq_refl (fun _ => eq_refl)) as (h1 & n & E & Ln & Ln1 & K1 & C1 & Sm & A & NS & O).
  rewrite He in E. unfold resampled_new. rewrite He, E. cbn [bind fst snd].
  exists (setattr h1 n "_fs" (VLeaf fs)), n. split; [reflexivity|].
  split; [rewrite setattr_class; exact C1|]. split; [rewrite setattr_samples; exact Sm|].
  split; [rewrite setattr_attr by exact Ln1; reflexivity|].
  intros a I N. rewrite setattr_attr by exact Ln1. destruct ("_fs" =? a)%string eqn:Q; [apply String.eqb_eq in Q; subst; contradiction N; reflexivity|].
  exact (A a I).
Qed.
End Objects.
