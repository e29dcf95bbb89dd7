From Coq Require Import String List Arith Bool Lia.
From Verif Require Import Common.Py Common.ListX Model.SignalObj Spec.SignalObjS Proofs.SignalObjP Proofs.SignalObjP2 Proofs.SignalObjP3.
Import ListNotations.
Open Scope string_scope.
Open Scope list_scope.

Section Objects.
Context {D : Type}.
Notation val := (val D). Notation cell := (cell D). Notation heap := (heap D).

Lemma observe_leaf (h : heap) o c a x : class_of h o = Some c -> In a (attributes c) -> attr h o a = Some (VLeaf x) -> observe h o [a] = Some (SLeaf x).
Proof. intros H I A. rewrite (observe_step h o c a [] H). destruct (in_dec string_dec a (attributes c)); [|contradiction]. rewrite A. reflexivity. Qed.
Lemma observe_ref (h : heap) o c a r path : class_of h o = Some c -> In a (attributes c) -> attr h o a = Some (VRef r) -> observe h o (a :: path) = observe h r path.
Proof. intros H I A. rewrite (observe_step h o c a path H). destruct (in_dec string_dec a (attributes c)); [|contradiction]. rewrite A. reflexivity. Qed.
Lemma observe_old (h h' : heap) r : r < length h -> (forall i, i < length h -> nth_error h' i = nth_error h i) -> observe h' r [] = observe h r [].
Proof. intros L O. cbn [observe]. rewrite (O r L). reflexivity. Qed.

Lemma qam_ok (h : heap) c data bits bitmap encoding coded M fb code : heap_ok h -> (c = QAM \/ c = PSK \/ c = FromBERT \/ c = Resampled) -> bits < length h ->
  exists h' o, qam_new h c data bits bitmap encoding coded M fb code = Ok (h', o) /\ heap_ok h' /\ no_self h' o /\
    class_of h' o = Some c /\ samples_of h' o = Some data /\
    observe h' o ["_fb"] = Some (SLeaf fb) /\ observe h' o ["_fs"] = Some (SLeaf fb) /\ observe h' o ["_M"] = Some (SLeaf M) /\
    observe h' o ["_coded_symbols"] = Some (SLeaf coded) /\ observe h' o ["_bits"] = observe h bits [] /\
    observe h' o ["_symbols"] = Some (SArray c data) /\
    (forall i, i < length h -> nth_error h' i = nth_error h i).
Proof.
  intros K Hc Lb. unfold qam_new.
  assert (S : is_signal c = true) by (destruct Hc as [-> |[-> |[-> | ->]]]; reflexivity).
  assert (AT : attributes c = attributes QAM) by (destruct Hc as [-> |[-> |[-> | ->]]]; reflexivity).
  set (l := [("_bitmap_mtx", VLeaf bitmap); ("_encoding", VLeaf encoding); ("_coded_symbols", VLeaf coded); ("_M", VLeaf M); ("_fb", VLeaf fb); ("_fs", VLeaf fb); ("_code", VLeaf code); ("_bits", VRef bits)] : list (string * val)).
  destruct (own_ok h c data l K S) as (h' & E & K' & NS & C & Sm & O1 & O2 & A1 & A2 & A & Old).
  - destruct Hc as [-> |[-> |[-> | ->]]]; discriminate.
  - rewrite AT. cbn. tauto.
  - cbn. repeat (constructor; [cbn; intuition discriminate|]). constructor.
  - intros a r I. cbn in I. repeat (destruct I as [I|I]; [try discriminate I|]); [|destruct I]. injection I as <- <-. exact Lb.
  - reflexivity.
  - exists h', (Datatypes.S (length h)). split; [exact E|]. rewrite AT in A.
    assert (L : forall a x, In a (attributes QAM) -> a <> "_symbols" -> lookup a l = Some (VLeaf x) -> observe h' (Datatypes.S (length h)) [a] = Some (SLeaf x)).
    { intros a x I N V. apply (observe_leaf h' _ c a x C); [rewrite AT; exact I|]. rewrite (A a I N), V. reflexivity. }
    split; [exact K'|]. split; [exact NS|]. split; [exact C|]. split; [exact Sm|].
    split; [apply L; [cbn; tauto|discriminate|reflexivity]|].
    split; [apply L; [cbn; tauto|discriminate|reflexivity]|].
    split; [apply L; [cbn; tauto|discriminate|reflexivity]|].
    split; [apply L; [cbn; tauto|discriminate|reflexivity]|].
    split.
    { rewrite (observe_ref h' _ c "_bits" bits [] C); [apply observe_old; [exact Lb|exact Old]|rewrite AT; cbn; tauto|].
      rewrite A; [reflexivity|cbn; tauto|discriminate]. }
    split; [exact O1|exact Old].
Qed.
Lemma symbol_only_ok (h : heap) data coded M fb : heap_ok h ->
  exists h' o, symbol_only_new h data coded M fb = Ok (h', o) /\ heap_ok h' /\ no_self h' o /\
    class_of h' o = Some SymbolOnly /\ samples_of h' o = Some data /\
    observe h' o ["_fb"] = Some (SLeaf fb) /\ observe h' o ["_fs"] = Some (SLeaf fb) /\ observe h' o ["_M"] = Some (SLeaf M) /\
    observe h' o ["_coded_symbols"] = Some (SLeaf coded) /\ observe h' o ["_symbols"] = Some (SArray SymbolOnly data) /\
    (forall i, i < length h -> nth_error h' i = nth_error h i).
Proof.
  intros K. unfold symbol_only_new.
  set (l := [("_coded_symbols", VLeaf coded); ("_M", VLeaf M); ("_fb", VLeaf fb); ("_fs", VLeaf fb)] : list (string * val)).
  destruct (own_ok h SymbolOnly data l K eq_refl) as (h' & E & K' & NS & C & Sm & O1 & O2 & A1 & A2 & A & Old).
  - discriminate.
  - cbn. tauto.
  - cbn. repeat (constructor; [cbn; intuition discriminate|]). constructor.
  - intros a r I. cbn in I. repeat (destruct I as [I|I]; [discriminate I|]). destruct I.
  - reflexivity.
  - exists h', (Datatypes.S (length h)). split; [exact E|].
    assert (L : forall a x, In a (attributes SymbolOnly) -> a <> "_symbols" -> lookup a l = Some (VLeaf x) -> observe h' (Datatypes.S (length h)) [a] = Some (SLeaf x)).
    { intros a x I N V. apply (observe_leaf h' _ SymbolOnly a x C I). rewrite (A a I N), V. reflexivity. }
    split; [exact K'|]. split; [exact NS|]. split; [exact C|]. split; [exact Sm|].
    split; [apply L; [cbn; tauto|discriminate|reflexivity]|].
    split; [apply L; [cbn; tauto|discriminate|reflexivity]|].
    split; [apply L; [cbn; tauto|discriminate|reflexivity]|].
    split; [apply L; [cbn; tauto|discriminate|reflexivity]|].
    split; [exact O1|exact Old].
Qed.
Lemma tdhqam_ok (h : heap) data s1 s2 scale fr M fb pm : heap_ok h -> s1 < length h -> s2 < length h ->
  exists h' o, tdhqam_new h data s1 s2 scale fr M fb pm = Ok (h', o) /\ heap_ok h' /\ no_self h' o /\
    class_of h' o = Some TDHQAM /\ samples_of h' o = Some data /\
    observe h' o ["_fb"] = Some (SLeaf fb) /\ observe h' o ["_fs"] = Some (SLeaf fb) /\ observe h' o ["_fr"] = Some (SLeaf fr) /\
    observe h' o ["_powratio"] = Some (SLeaf scale) /\
    observe h' o ["_symbols_M1"] = observe h s1 [] /\ observe h' o ["_symbols_M2"] = observe h s2 [] /\
    attr h' o "_power_method" = Some (VLeaf pm) /\ attr h' o "_symbols" = None.
Proof.
  intros K L1 L2. unfold tdhqam_new.
  set (l := [("_symbols_M1", VRef s1); ("_symbols_M2", VRef s2); ("_powratio", VLeaf scale); ("_fr", VLeaf fr); ("_fb", VLeaf fb); ("_fs", VLeaf fb); ("_M", VLeaf M); ("_power_method", VLeaf pm)] : list (string * val)).
  assert (ND : NoDup (map fst l)) by (cbn; repeat (constructor; [cbn; intuition discriminate|]); constructor).
  destruct (fresh_ok h TDHQAM data l K eq_refl ND) as (h' & E & K' & NS & C & Sm & A & B & Old).
  - intros a r I. cbn in I. destruct I as [I|[I|I]]; [injection I as <- <-; exact L1|injection I as <- <-; exact L2|].
    repeat (destruct I as [I|I]; [discriminate I|]). destruct I.
  - cbn. intuition discriminate.
  - discriminate.
  - discriminate.
  - exists h', (Datatypes.S (length h)). split; [exact E|]. split; [exact K'|]. split; [exact NS|]. split; [exact C|]. split; [exact Sm|].
    assert (L : forall a x, In a (attributes TDHQAM) -> lookup a l = Some (VLeaf x) -> observe h' (Datatypes.S (length h)) [a] = Some (SLeaf x)).
    { intros a x I V. apply (observe_leaf h' _ TDHQAM a x C I). exact (B a _ V). }
    split; [apply L; [cbn; tauto|reflexivity]|]. split; [apply L; [cbn; tauto|reflexivity]|].
    split; [apply L; [cbn; tauto|reflexivity]|]. split; [apply L; [cbn; tauto|reflexivity]|].
    split; [|split; [|split]].
    + rewrite (observe_ref h' _ TDHQAM _ s1 [] C); [apply observe_old; [exact L1|exact Old]|cbn; tauto|apply B; reflexivity].
    + rewrite (observe_ref h' _ TDHQAM _ s2 [] C); [apply observe_old; [exact L2|exact Old]|cbn; tauto|apply B; reflexivity].
    + apply B. reflexivity.
    + destruct (fresh_spec h TDHQAM data l K eq_refl ND) as (d & E' & _ & _ & A'). rewrite E in E'. injection E' as E'. rewrite E'.
      unfold attr. replace (Datatypes.S (length h)) with (length (h ++ [nd data])) by (rewrite app_length; cbn [length]; lia).
      rewrite nth_new, A'. destruct (in_dec string_dec "_symbols" (attributes TDHQAM)) as [I|I]; [|reflexivity].
      exfalso. cbn in I. intuition discriminate.
Qed.
Lemma pilots_new_ok (h : heap) data pilots symbs fb fs frame_len seq_len ins_rat idx_dat idx_pil scale :
  heap_ok h -> pilots < length h -> symbs < length h -> class_of h symbs <> Some WithPilots ->
  exists h' o, pilots_new h data pilots symbs fb fs frame_len seq_len ins_rat idx_dat idx_pil scale = Ok (h', o) /\ heap_ok h' /\ no_self h' o /\
    class_of h' o = Some WithPilots /\ samples_of h' o = Some data /\
    observe h' o ["_fb"] = Some (SLeaf fb) /\ observe h' o ["_fs"] = Some (SLeaf fs) /\ observe h' o ["_frame_len"] = Some (SLeaf frame_len) /\
    observe h' o ["_pilots"] = observe h pilots [] /\ observe h' o ["_symbols"] = observe h symbs [].
Proof.
  intros K L1 L2 NP. unfold pilots_new.
  set (l := [("_fb", VLeaf fb); ("_fs", VLeaf fs); ("_frame_len", VLeaf frame_len); ("_pilot_seq_len", VLeaf seq_len); ("_pilot_ins_rat", VLeaf ins_rat); ("_symbols", VRef symbs); ("_pilots", VRef pilots); ("_idx_dat", VLeaf idx_dat); ("_idx_pil", VLeaf idx_pil); ("_pilot_scale", VLeaf scale); ("_shiftfctrs", VNone); ("_synctaps", VNone)] : list (string * val)).
  assert (ND : NoDup (map fst l)) by (cbn; repeat (constructor; [cbn; intuition discriminate|]); constructor).
  destruct (fresh_ok h WithPilots data l K eq_refl ND) as (h' & E & K' & NS & C & Sm & A & B & Old).
  - intros a r I. cbn in I. repeat (destruct I as [I|I]; [try discriminate I; injection I as <- <-; assumption|]). destruct I.
  - discriminate.
  - discriminate.
  - intros _ s Hs. cbn in Hs. injection Hs as <-. exact NP.
  - exists h', (Datatypes.S (length h)). split; [exact E|]. split; [exact K'|]. split; [exact NS|]. split; [exact C|]. split; [exact Sm|].
    assert (L : forall a x, In a (attributes WithPilots) -> lookup a l = Some (VLeaf x) -> observe h' (Datatypes.S (length h)) [a] = Some (SLeaf x)).
    { intros a x I V. apply (observe_leaf h' _ WithPilots a x C I). exact (B a _ V). }
    split; [apply L; [cbn; tauto|reflexivity]|]. split; [apply L; [cbn; tauto|reflexivity]|]. split; [apply L; [cbn; tauto|reflexivity]|].
    split.
    + rewrite (observe_ref h' _ WithPilots _ pilots [] C); [apply observe_old; [exact L1|exact Old]|cbn; tauto|apply B; reflexivity].
    + rewrite (observe_ref h' _ WithPilots _ symbs [] C); [apply observe_old; [exact L2|exact Old]|cbn; tauto|apply B; reflexivity].
Qed.

(** a copy of the reference symbols refers back to the signal itself *)
Lemma alias (h : heap) c data bits bitmap encoding coded M fb code : heap_ok h -> (c = QAM \/ c = PSK \/ c = FromBERT \/ c = Resampled) -> bits < length h ->
  exists h1 o s h2 t, qam_new h c data bits bitmap encoding coded M fb code = Ok (h1, o) /\ attr h1 o "_symbols" = Some (VRef s) /\
    derive h1 s data = Ok (h2, t) /\ observe h2 t ["_symbols"] = Some (SArray c data) /\
    forall data2, observe (in_place h2 o data2) t ["_symbols"] = Some (SArray c data2).
Proof.
  intros K Hc Lb. unfold qam_new.
  assert (S : is_signal c = true) by (destruct Hc as [-> |[-> |[-> | ->]]]; reflexivity).
  assert (AT : attributes c = attributes QAM) by (destruct Hc as [-> |[-> |[-> | ->]]]; reflexivity).
  set (l := [("_bitmap_mtx", VLeaf bitmap); ("_encoding", VLeaf encoding); ("_coded_symbols", VLeaf coded); ("_M", VLeaf M); ("_fb", VLeaf fb); ("_fs", VLeaf fb); ("_code", VLeaf code); ("_bits", VRef bits)] : list (string * val)).
  assert (IS : In "_symbols" (attributes c)) by (rewrite AT; cbn; tauto).
  destruct (own_ok h c data l K S) as (h' & E & K' & NS & C & Sm & O1 & O2 & A1 & A2 & A & Old).
  - destruct Hc as [-> |[-> |[-> | ->]]]; discriminate.
  - exact IS.
  - cbn. repeat (constructor; [cbn; intuition discriminate|]). constructor.
  - intros a r I. cbn in I. repeat (destruct I as [I|I]; [try discriminate I|]); [|destruct I]. injection I as <- <-. exact Lb.
  - reflexivity.
  - set (o := Datatypes.S (length h)) in *. set (s := Datatypes.S o) in *.
    assert (Cs : class_of h' s = Some c).
    { rewrite (observe_ref h' o c "_symbols" s [] C IS A1) in O1. cbn [observe] in O1. unfold class_of. destruct (nth_error h' s); [|discriminate].
      injection O1 as O1 _. cbn. rewrite O1. reflexivity. }
    destruct (derive_observe h' s c data K' S Cs) as (h2 & E2 & K2 & C2 & _ & B2 & _ & _).
    destruct (derive_old h' s data h2 _ E2) as (_ & Old2).
    assert (Lo : o < length h') by (destruct (class_nth h' o c C) as (x & Hx & _); exact (nth_lt _ _ _ Hx)).
    assert (At : attr h2 (length h') "_symbols" = Some (VRef o)) by (rewrite (B2 _ IS); exact A2).
    exists h', o, s, h2, (length h'). split; [exact E|]. split; [exact A1|]. split; [exact E2|]. split.
    + rewrite (observe_ref h2 _ c "_symbols" o [] C2 IS At). cbn [observe]. rewrite (Old2 o Lo).
      unfold class_of in C. unfold samples_of in Sm. destruct (nth_error h' o); [|discriminate]. injection C as C. injection Sm as Sm. rewrite C, Sm. reflexivity.
    + intros data2. assert (C3 : class_of (in_place h2 o data2) (length h') = Some c) by (rewrite in_place_class; exact C2).
      assert (At3 : attr (in_place h2 o data2) (length h') "_symbols" = Some (VRef o)).
      { unfold attr, in_place. rewrite update_nth. destruct (Nat.eqb_spec (length h') o); [lia|]. exact At. }
      rewrite (observe_ref _ _ c "_symbols" o [] C3 IS At3). cbn [observe]. unfold in_place. rewrite update_nth, Nat.eqb_refl, (Old2 o Lo).
      unfold class_of in C. destruct (nth_error h' o); [|discriminate]. injection C as C. cbn [option_map c_cls c_data]. rewrite C. reflexivity.
Qed.
End Objects.
