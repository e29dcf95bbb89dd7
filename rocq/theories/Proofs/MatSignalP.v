(** create_signal_from_matlab *)
From Coq Require Import String List Arith Bool Lia.
From Verif Require Import Common.Py Common.ListX Common.Cplx Model.MatIo Model.SignalObj Model.MatSignal Spec.SignalObjS Proofs.SignalObjP Proofs.SignalObjP2.
Import ListNotations.
Open Scope string_scope.
Open Scope list_scope.

Section Mat.
Context {D : Type} (emb : C -> D) (rate : D -> D -> D -> result D) (nframes : nat -> D -> D -> D -> result nat).
Lemma fs_attribute c : is_signal c = true -> In "_fs" (attributes c).
Proof. destruct c; cbn; intros H; try discriminate; tauto. Qed.
Lemma loaded (h : heap D) o c data fs : heap_ok h -> is_signal c = true -> class_of h o = Some c ->
  exists h', recreate rate (h ++ [{| c_cls := NDArray; c_data := map (map emb) data; c_attrs := [] |}]) o (length h) [("fs", VLeaf fs)] = Ok (h', S (length h)) /\
    class_of h' (S (length h)) = Some c /\ samples_of h' (S (length h)) = Some (map (map emb) data) /\ attr h' (S (length h)) "_fs" = Some (VLeaf fs) /\
    (forall k, In (append "_" k) (attributes c) -> k <> "fs" -> attr h' (S (length h)) (append "_" k) = attr h o (append "_" k)) /\
    forall i, i < length h -> nth_error h' i = nth_error h i.
Proof.
  intros K Hs Hc. set (h1 := h ++ [_]). assert (Ho : o < length h) by (unfold class_of in Hc; destruct (nth_error h o) eqn:E; [eapply nth_error_Some_lt; exact E|discriminate]).
  assert (L1 : length h1 = S (length h)) by (unfold h1; rewrite app_length; cbn; lia).
  assert (N1 : nth_error h1 (length h) = Some {| c_cls := NDArray; c_data := map (map emb) data; c_attrs := [] |}) by (unfold h1; rewrite nth_error_app2, Nat.sub_diag by lia; reflexivity).
  assert (Nl : forall i, i < length h -> nth_error h1 i = nth_error h i) by (intros i Hi; unfold h1; now apply nth_error_app1).
  destruct (recreate_kept rate h1 o (length h) c [("fs", VLeaf fs)]) as (h' & E & A1 & A2 & A3 & _ & A5).
  - exact (nd_ok h (map (map emb) data) K).
  - exact Hs.
  - unfold class_of. rewrite Nl by exact Ho. exact Hc.
  - unfold class_of. rewrite N1. discriminate.
  - right. discriminate.
  - repeat constructor. intros [].
  - intros k [<-|[]]. destruct c; cbn; intros H; repeat (destruct H as [H|H]; [discriminate|]); exact H.
  - intros k [<-|[]] H. exfalso. apply H. now apply fs_attribute.
  - rewrite L1 in *. exists h'. split; [exact E|]. split; [exact A1|]. split; [rewrite A2; unfold samples_of; rewrite N1; reflexivity|]. split; [exact (A3 "fs" (fs_attribute c Hs))|]. split.
    + intros k Hk Hne. rewrite (A3 k Hk). cbn [lookup]. destruct (String.eqb_spec "fs" k) as [E0|_]; [congruence|]. unfold attr. now rewrite Nl.
    + intros i Hi. rewrite A5 by lia. now apply Nl.
Qed.
Lemma mat_signal (h : heap D) o c file fs keys tr dc pm data : heap_ok h -> is_signal c = true -> c <> WithPilots -> class_of h o = Some c ->
  ndarray_from_matlab file keys tr dc pm = Ok data ->
  exists h', create_signal_from_matlab emb rate nframes h o file fs keys tr dc pm = Ok (h', S (length h)) /\
    class_of h' (S (length h)) = Some c /\ samples_of h' (S (length h)) = Some (map (map emb) data) /\ attr h' (S (length h)) "_fs" = Some (VLeaf fs) /\
    (forall k, In (append "_" k) (attributes c) -> k <> "fs" -> attr h' (S (length h)) (append "_" k) = attr h o (append "_" k)) /\
    forall i, i < length h -> nth_error h' i = nth_error h i.
Proof.
  intros K Hs Hp Hc E. unfold create_signal_from_matlab. rewrite E. cbn [bind]. pose proof Hc as Hc'. unfold class_of in Hc'. destruct (nth_error h o) as [x|]; [|discriminate].
  injection Hc' as Ex. rewrite Ex. destruct (cls_eqb c WithPilots) eqn:Ec; [destruct c; try discriminate; contradiction|]. exact (loaded h o c data fs K Hs Hc).
Qed.
Lemma mat_signal_pilots (h : heap D) o file fs fb fl n keys tr dc pm data : heap_ok h -> class_of h o = Some WithPilots ->
  attr h o "_fb" = Some (VLeaf fb) -> attr h o "_frame_len" = Some (VLeaf fl) ->
  ndarray_from_matlab file keys tr dc pm = Ok data -> nframes (length (hd [] data)) fs fb fl = Ok n ->
  (n = 0 -> create_signal_from_matlab emb rate nframes h o file fs keys tr dc pm = Err AssertionError) /\
  (0 < n -> exists h', create_signal_from_matlab emb rate nframes h o file fs keys tr dc pm = Ok (h', S (length h)) /\
    class_of h' (S (length h)) = Some WithPilots /\ samples_of h' (S (length h)) = Some (map (map emb) data) /\ attr h' (S (length h)) "_fs" = Some (VLeaf fs) /\
    (forall k, In (append "_" k) (attributes WithPilots) -> k <> "fs" -> attr h' (S (length h)) (append "_" k) = attr h o (append "_" k)) /\
    forall i, i < length h -> nth_error h' i = nth_error h i).
Proof.
  intros K Hc Hb Hl E En. destruct (loaded h o WithPilots data fs K eq_refl Hc) as (h' & Er & A1 & A2 & A3 & A4 & A5).
  assert (Step : create_signal_from_matlab emb rate nframes h o file fs keys tr dc pm = if (n =? 0)%nat then Err AssertionError else Ok (h', S (length h))).
  { unfold create_signal_from_matlab. rewrite E. cbn [bind]. pose proof Hc as Hc'. unfold class_of in Hc'. destruct (nth_error h o) as [x|]; [|discriminate].
    injection Hc' as Ex. rewrite Ex. change (cls_eqb WithPilots WithPilots) with true. cbv iota. unfold recreate_pilots. rewrite Er. cbn [bind fst snd].
    assert (G : forall a v, attr h' (S (length h)) a = Some v -> getattr h' (S (length h)) a = Ok v).
    { intros a v H. unfold getattr. cbn [getattr_f]. unfold attr in H. destruct (nth_error h' (S (length h))) as [y|]; [|discriminate]. now rewrite H. }
    rewrite (G "_fs" _ A3). cbn [bind]. rewrite (G "_fb" (VLeaf fb)) by (rewrite <- Hb; apply (A4 "fb"); [cbn; tauto|discriminate]). cbn [bind].
    rewrite (G "_frame_len" (VLeaf fl)) by (rewrite <- Hl; apply (A4 "frame_len"); [cbn; tauto|discriminate]). cbn [bind].
    unfold samples_of in A2. destruct (nth_error h' (S (length h))) as [y|]; [|discriminate]. cbn [option_map] in A2. injection A2 as A2. rewrite A2.
    replace (length (hd [] (map (map emb) data))) with (length (hd [] data)) by (destruct data; [reflexivity|cbn; now rewrite map_length]). rewrite En. reflexivity. }
  split; intros Hn.
  - rewrite Step, Hn. reflexivity.
  - exists h'. rewrite Step. destruct (Nat.eqb_spec n 0); [lia|]. now repeat split.
Qed.
Lemma mat_signal_error (h : heap D) o file fs keys tr dc pm e : ndarray_from_matlab file keys tr dc pm = Err e -> create_signal_from_matlab emb rate nframes h o file fs keys tr dc pm = Err e.
Proof. intros E. unfold create_signal_from_matlab. now rewrite E. Qed.
End Mat.
