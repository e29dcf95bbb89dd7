From Coq Require Import String List Arith Bool Lia.
From Verif Require Import Common.Py Common.ListX Model.SignalObj Spec.SignalObjS.
Import ListNotations.
Open Scope string_scope.
Open Scope list_scope.

Lemma NoDup_app_snoc {A} (l : list A) x : NoDup l -> ~ In x l -> NoDup (l ++ [x]).
Proof.
  induction l as [|a l IH]; intros ND NI; cbn [app].
  - constructor; [intros []|constructor].
  - apply NoDup_cons_iff in ND. destruct ND as (N1 & N2). constructor.
    + intros I. apply in_app_or in I. destruct I as [I|[->|[]]]; [exact (N1 I)|]. apply NI. left. reflexivity.
    + apply IH; [exact N2|]. intros I. apply NI. right. exact I.
Qed.

Section Objects.
Context {D : Type}.
Notation val := (val D). Notation cell := (cell D). Notation heap := (heap D).

Lemma lookup_set_attr (a b : string) (v : val) l : lookup a (set_attr b v l) = if (b =? a)%string then Some v else lookup a l.
Proof.
  induction l as [|[k w] l IH]; cbn [set_attr lookup].
  - reflexivity.
  - destruct (k =? b)%string eqn:E.
    + apply String.eqb_eq in E. subst k. cbn [lookup]. destruct (b =? a)%string; reflexivity.
    + cbn [lookup]. rewrite IH. destruct (k =? a)%string eqn:F; [|reflexivity].
      destruct (b =? a)%string eqn:G; [|reflexivity].
      apply String.eqb_eq in F. apply String.eqb_eq in G. subst. rewrite String.eqb_refl in E. discriminate.
Qed.
Lemma lookup_map_in (f : string -> val) (a : string) l : In a l -> lookup a (map (fun b => (b, f b)) l) = Some (f a).
Proof.
  induction l as [|b l IH]; [intros []|]. intros H. cbn [map lookup].
  destruct (b =? a)%string eqn:E; [apply String.eqb_eq in E; subst; reflexivity|].
  destruct H as [->|H]; [rewrite String.eqb_refl in E; discriminate|exact (IH H)].
Qed.
Lemma lookup_map_notin (f : string -> val) (a : string) l : ~ In a l -> lookup a (map (fun b => (b, f b)) l) = None.
Proof.
  induction l as [|b l IH]; [reflexivity|]. intros H. cbn [map lookup].
  destruct (b =? a)%string eqn:E; [apply String.eqb_eq in E; subst; exfalso; apply H; left; reflexivity|].
  apply IH. intros G. apply H. right. exact G.
Qed.
Lemma lookup_map_vals (g : val -> val) a l : lookup a (map (fun p => (fst p, g (snd p))) l) = option_map g (lookup a l).
Proof.
  induction l as [|[b v] l IH]; [reflexivity|]. cbn [map lookup fst snd].
  destruct (b =? a)%string; [reflexivity|exact IH].
Qed.

Lemma attributes_inherit c : is_signal c = true -> forall a, In a (attributes c) <-> In a (inheritbase ++ inheritattr c).
Proof.
  destruct c; intros H; try discriminate H; intros a; cbn [attributes documented used inheritbase inheritattr app In]; tauto.
Qed.
Lemma attributes_none c : is_signal c = false -> attributes c = [].
Proof. destruct c; intros H; try discriminate H; reflexivity. Qed.
Lemma attributes_signal c a : In a (attributes c) -> is_signal c = true.
Proof. intros H. destruct (is_signal c) eqn:E; [reflexivity|]. rewrite (attributes_none c E) in H. destruct H. Qed.

Lemma getattr_found (h : heap) o c a v : nth_error h o = Some c -> lookup a (c_attrs c) = Some v -> getattr h o a = Ok v.
Proof. intros H G. unfold getattr. cbn [getattr_f]. rewrite H, G. reflexivity. Qed.
Lemma cls_eqb_eq a b : cls_eqb a b = true <-> a = b.
Proof. destruct a, b; cbn; split; intros H; try discriminate H; reflexivity. Qed.
Lemma getattr_absent (h : heap) o c a : nth_error h o = Some c -> lookup a (c_attrs c) = None -> c_cls c <> WithPilots ->
  getattr h o a = Err AttributeError.
Proof.
  intros H G N. unfold getattr. cbn [getattr_f]. rewrite H, G.
  destruct (cls_eqb (c_cls c) WithPilots) eqn:E; [apply cls_eqb_eq in E; contradiction|reflexivity].
Qed.
Lemma nth_lt (h : heap) o c : nth_error h o = Some c -> o < length h.
Proof. intros H. apply nth_error_Some. rewrite H. discriminate. Qed.
(** the invariant without the condition on reference symbols *)
Definition heap_ok0 (h : heap) : Prop := forall o c, nth_error h o = Some c ->
  ((forall a r, lookup a (c_attrs c) = Some (VRef r) -> r < length h) /\
   (forall a, In a (attributes (c_cls c)) -> lookup a (c_attrs c) <> None)) /\ pilots_ok h c.
Lemma ok_ok0 (h : heap) : heap_ok h -> heap_ok0 h.
Proof. intros K o c H. destruct (K o c H) as ((A & B & _) & P). split; [split; assumption|exact P]. Qed.
Lemma getattr_total (h : heap) o c a : heap_ok0 h -> nth_error h o = Some c ->
  (exists v, getattr h o a = Ok v /\ (forall r, v = VRef r -> r < length h)) \/ getattr h o a = Err AttributeError.
Proof.
  intros K H. destruct (K o c H) as ((K1 & K2) & K4).
  destruct (lookup a (c_attrs c)) as [v|] eqn:G.
  - left. exists v. split; [exact (getattr_found h o c a v H G)|]. intros r ->. exact (K1 a r G).
  - destruct (cls_eqb (c_cls c) WithPilots) eqn:E.
    2:{ right. apply (getattr_absent h o c a H G). intros F. rewrite F in E. discriminate. }
    pose proof (nth_lt h o c H) as L. unfold getattr. cbn [getattr_f]. rewrite H, G, E.
    destruct (length h) as [|n] eqn:En; [lia|]. apply cls_eqb_eq in E.
    assert (P : In "_symbols" (attributes (c_cls c))) by (rewrite E; cbn; tauto).
    specialize (K2 _ P). specialize (K4 E).
    assert (Q : getattr_f (S n) h o "_symbols" = match lookup "_symbols" (c_attrs c) with Some v => Ok v | None => Err AttributeError end).
    { cbn [getattr_f]. rewrite H. destruct (lookup "_symbols" (c_attrs c)); [reflexivity|contradiction]. }
    rewrite Q. clear Q. destruct (lookup "_symbols" (c_attrs c)) as [w|] eqn:W; [|right; reflexivity].
    cbn [bind]. destruct w as [|x|s]; [right; reflexivity|right; reflexivity|].
    specialize (K1 _ _ W).
    destruct (nth_error h s) as [d|] eqn:Es; [|apply nth_error_None in Es; lia].
    specialize (K4 s d eq_refl Es). cbn [getattr_f]. rewrite Es.
    destruct (lookup a (c_attrs d)) as [v|] eqn:V.
    + left. exists v. split; [reflexivity|]. intros r ->. destruct (K s d Es) as ((J1 & _) & _). rewrite <- En. exact (J1 a r V).
    + right. destruct (cls_eqb (c_cls d) WithPilots) eqn:F; [apply cls_eqb_eq in F; contradiction|reflexivity].
Qed.
Definition gn (h : heap) (o : nat) (a : string) : val := match getattr h o a with Ok v => v | Err _ => VNone end.
Lemma getattr_none_ok (h : heap) o c a : heap_ok0 h -> nth_error h o = Some c -> getattr_none h o a = Ok (gn h o a).
Proof.
  intros K H. unfold getattr_none, gn.
  destruct (getattr_total h o c a K H) as [(v & -> & _)| ->]; reflexivity.
Qed.
Lemma gn_ref (h : heap) o c a r : heap_ok0 h -> nth_error h o = Some c -> gn h o a = VRef r -> r < length h.
Proof.
  intros K H. unfold gn. destruct (getattr_total h o c a K H) as [(v & -> & F)| ->]; [|discriminate].
  intros G. exact (F r G).
Qed.
Lemma mapM_pairs (f : string -> result val) (g : string -> val) l : (forall a, In a l -> f a = Ok (g a)) ->
  mapM (fun a => let! v := f a in Ok (a, v)) l = Ok (map (fun a => (a, g a)) l).
Proof.
  induction l as [|a l IH]; [reflexivity|]. intros H. cbn [mapM map].
  rewrite (H a (or_introl eq_refl)). cbn [bind]. rewrite IH; [reflexivity|]. intros b Hb. apply H. right. exact Hb.
Qed.

(** ** __array_finalize__ *)
Definition fin_sym (h : heap) (t : nat) : option val :=
  match getattr h t "_symbols" with Ok VNone => Some (VRef t) | Ok v => Some v | Err _ => None end.
Lemma finalize_ok (h : heap) c t d : heap_ok0 h -> nth_error h t = Some d -> is_signal c = true ->
  exists l, finalize h c (Some t) = Ok l /\
    forall a, lookup a l = if (("_symbols" =? a)%string && match fin_sym h t with Some _ => true | None => false end)%bool then fin_sym h t
                           else if in_dec string_dec a (attributes c) then Some (gn h t a) else None.
Proof.
  intros K H S.
  assert (F : finalize h c (Some t) =
     let! l := mapM (fun a => let! v := getattr_none h t a in Ok (a, v)) (inheritbase ++ inheritattr c) in
     match getattr h t "_symbols" with
     | Ok VNone => Ok (set_attr "_symbols" (VRef t) l) | Ok v => Ok (set_attr "_symbols" v l)
     | Err AttributeError => Ok l | Err e => Err e end)
    by (destruct c; try discriminate S; reflexivity).
  rewrite F. clear F. rewrite (mapM_pairs _ (gn h t)) by (intros a _; exact (getattr_none_ok h t d a K H)).
  cbn [bind].
  assert (L : forall a, lookup a (map (fun b => (b, gn h t b)) (inheritbase ++ inheritattr c)) =
                if in_dec string_dec a (attributes c) then Some (gn h t a) else None).
  { intros a. destruct (in_dec string_dec a (attributes c)) as [I|I].
    - apply (attributes_inherit c S) in I. exact (lookup_map_in (gn h t) a _ I).
    - apply lookup_map_notin. intros J. apply I. apply (attributes_inherit c S). exact J. }
  unfold fin_sym. destruct (getattr_total h t d "_symbols" K H) as [(v & -> & _)| ->].
  - destruct v; eexists; (split; [reflexivity|]); intros a; rewrite lookup_set_attr, L; destruct ("_symbols" =? a)%string; reflexivity.
  - eexists. split; [reflexivity|]. intros a. rewrite L, andb_false_r. reflexivity.
Qed.
Lemma fin_sym_ref (h : heap) t d r : heap_ok0 h -> nth_error h t = Some d -> fin_sym h t = Some (VRef r) -> r < length h.
Proof.
  intros K H. unfold fin_sym. destruct (getattr_total h t d "_symbols" K H) as [(v & -> & F)| ->]; [|discriminate].
  destruct v as [|x|s]; [|discriminate|].
  - intros G. injection G as <-. exact (nth_lt h t d H).
  - intros G. injection G as <-. exact (F s eq_refl).
Qed.
Lemma fin_sym_none (h : heap) t : fin_sym h t <> Some VNone.
Proof. unfold fin_sym. destruct (getattr h t "_symbols") as [[| |]|]; discriminate. Qed.

(** with a template of the same kind *)
Lemma finalize_same (h : heap) t d : heap_ok h -> nth_error h t = Some d -> is_signal (c_cls d) = true ->
  exists l, finalize h (c_cls d) (Some t) = Ok l /\
    (forall a, In a (attributes (c_cls d)) -> lookup a l = lookup a (c_attrs d)) /\
    lookup "_symbols" l = lookup "_symbols" (c_attrs d) /\
    (forall a, a <> "_symbols" -> ~ In a (attributes (c_cls d)) -> lookup a l = None).
Proof.
  intros K H S. destruct (finalize_ok h (c_cls d) t d (ok_ok0 h K) H S) as (l & E & L).
  destruct (K t d H) as ((K1 & K2 & K3) & K4).
  assert (G : forall a v, lookup a (c_attrs d) = Some v -> gn h t a = v).
  { intros a v Hv. unfold gn. rewrite (getattr_found h t d a v H Hv). reflexivity. }
  assert (FS : lookup "_symbols" l = lookup "_symbols" (c_attrs d)).
  { rewrite L. cbn [String.eqb Ascii.eqb Bool.eqb andb]. change ("_symbols" =? "_symbols")%string with true. cbn [andb].
    unfold fin_sym. destruct (lookup "_symbols" (c_attrs d)) as [v|] eqn:V.
    - rewrite (getattr_found h t d _ v H V). destruct v; [contradiction K3; reflexivity|reflexivity|reflexivity].
    - destruct (in_dec string_dec "_symbols" (attributes (c_cls d))) as [I|I]; [exfalso; exact (K2 _ I V)|].
      rewrite (getattr_absent h t d _ H V); [reflexivity|].
      intros P. apply I. rewrite P. cbn. tauto. }
  exists l. split; [exact E|]. split; [|split; [exact FS|]].
  - intros a I. destruct (string_dec a "_symbols") as [->|N]; [exact FS|].
    rewrite L. destruct ("_symbols" =? a)%string eqn:Q; [apply String.eqb_eq in Q; subst; contradiction N; reflexivity|].
    cbn [andb]. destruct (in_dec string_dec a (attributes (c_cls d))); [|contradiction].
    specialize (K2 a I). destruct (lookup a (c_attrs d)) as [v|] eqn:V; [|contradiction]. rewrite (G a v V). reflexivity.
  - intros a N I. rewrite L. destruct ("_symbols" =? a)%string eqn:Q; [apply String.eqb_eq in Q; subst; contradiction N; reflexivity|].
    cbn [andb]. destruct (in_dec string_dec a (attributes (c_cls d))); [contradiction|reflexivity].
Qed.

(** ** observations in a larger heap *)
Lemma nth_app (h h2 : heap) o c : nth_error h o = Some c -> nth_error (h ++ h2) o = Some c.
Proof. intros H. rewrite nth_error_app1; [exact H|exact (nth_lt h o c H)]. Qed.
Lemma nth_new (h : heap) c : nth_error (h ++ [c]) (length h) = Some c.
Proof. rewrite nth_error_app2 by lia. rewrite Nat.sub_diag. reflexivity. Qed.
Lemma observe_app (h h2 : heap) path : heap_ok h -> forall o, o < length h -> observe (h ++ h2) o path = observe h o path.
Proof.
  intros K. induction path as [|a path IH]; intros o L.
  - cbn [observe]. rewrite nth_error_app1 by exact L. reflexivity.
  - cbn [observe]. rewrite nth_error_app1 by exact L. destruct (nth_error h o) as [c|] eqn:H; [|reflexivity].
    destruct (in_dec string_dec a (attributes (c_cls c))); [|reflexivity].
    destruct (lookup a (c_attrs c)) as [[|x|r]|] eqn:V; try reflexivity.
    apply IH. destruct (K o c H) as ((K1 & _) & _). exact (K1 a r V).
Qed.
Lemma cell_ok_mono n m (c : cell) : n <= m -> cell_ok n c -> cell_ok m c.
Proof. intros L (A & B & E). split; [|split; assumption]. intros a o H. specialize (A a o H). lia. Qed.
Lemma pilots_ok_app (h h2 : heap) c : cell_ok (length h) c -> pilots_ok h c -> pilots_ok (h ++ h2) c.
Proof.
  intros (A & _) P E s d L N. specialize (A _ _ L). rewrite nth_error_app1 in N by exact A. exact (P E s d L N).
Qed.
Lemma heap_ok_snoc (h : heap) c : heap_ok h -> cell_ok (length h) c -> pilots_ok h c -> heap_ok (h ++ [c]).
Proof.
  intros K A P o d H. rewrite app_length. cbn [length].
  destruct (Nat.lt_ge_cases o (length h)) as [L|L].
  - rewrite nth_error_app1 in H by exact L. destruct (K o d H) as (B & Q). split.
    + apply (cell_ok_mono (length h)); [lia|exact B].
    + exact (pilots_ok_app h [c] d B Q).
  - rewrite nth_error_app2 in H by exact L. destruct (o - length h) as [|k]; [|destruct k; discriminate H].
    injection H as <-. split; [apply (cell_ok_mono (length h)); [lia|exact A]|exact (pilots_ok_app h [c] c A P)].
Qed.

(** ** operations on a signal *)
Definition is_sig (h : heap) (o : nat) (c : cls) : Prop := is_signal c = true /\ class_of h o = Some c.
Lemma class_nth (h : heap) o c : class_of h o = Some c -> exists d, nth_error h o = Some d /\ c_cls d = c.
Proof. unfold class_of. destruct (nth_error h o) as [d|]; [|discriminate]. intros H. injection H as <-. exists d. split; reflexivity. Qed.

Lemma derive_ok (h : heap) o c data : heap_ok h -> is_signal c = true -> class_of h o = Some c ->
  exists d, derive h o data = Ok (h ++ [d], length h) /\ heap_ok (h ++ [d]) /\ c_cls d = c /\ c_data d = data /\
    (forall a, In a (attributes c) -> lookup a (c_attrs d) = attr h o a) /\
    (forall a, a <> "_symbols" -> ~ In a (attributes c) -> lookup a (c_attrs d) = None) /\
    lookup "_symbols" (c_attrs d) = attr h o "_symbols".
Proof.
  intros K S H. destruct (class_nth h o c H) as (e & He & <-).
  destruct (finalize_same h o e K He S) as (l & E & L1 & L2 & L3).
  destruct (K o e He) as ((K1 & K2 & K3) & K4).
  exists {| c_cls := c_cls e; c_data := data; c_attrs := l |}.
  unfold derive, alloc, attr. rewrite He, E. cbn [bind c_cls c_data c_attrs].
  split; [reflexivity|]. split; [|split; [reflexivity|split; [reflexivity|split; [exact L1|split; [exact L3|exact L2]]]]].
  assert (V : forall a r, lookup a l = Some (VRef r) -> lookup a (c_attrs e) = Some (VRef r)).
  { intros a r Hr. destruct (in_dec string_dec a (attributes (c_cls e))) as [I|I]; [rewrite <- (L1 a I); exact Hr|].
    destruct (string_dec a "_symbols") as [->|N]; [rewrite <- L2; exact Hr|]. rewrite (L3 a N I) in Hr. discriminate. }
  apply heap_ok_snoc; [exact K| |].
  - split; [|split].
    + intros a r Hr. apply (K1 a r). exact (V a r Hr).
    + cbn [c_cls c_attrs]. intros a I. rewrite (L1 a I). exact (K2 a I).
    + cbn [c_attrs]. rewrite L2. exact K3.
  - intros P s d Ls Nd. cbn [c_cls c_attrs] in *. exact (K4 P s d (V _ _ Ls) Nd).
Qed.
Lemma observe_step (h : heap) o c a path : class_of h o = Some c ->
  observe h o (a :: path) = if in_dec string_dec a (attributes c) then
     match attr h o a, path with Some (VRef r), _ => observe h r path | Some VNone, [] => Some SNone | Some (VLeaf x), [] => Some (SLeaf x) | _, _ => None end
   else None.
Proof.
  intros H. destruct (class_nth h o c H) as (e & He & <-). unfold attr. cbn [observe]. rewrite He. reflexivity.
Qed.
Lemma attr_ref_lt (h : heap) o a r : heap_ok h -> attr h o a = Some (VRef r) -> r < length h.
Proof.
  intros K. unfold attr. destruct (nth_error h o) as [c|] eqn:H; [|discriminate]. destruct (K o c H) as ((K1 & _) & _). apply K1.
Qed.
Lemma derive_observe (h : heap) o c data : heap_ok h -> is_signal c = true -> class_of h o = Some c ->
  exists h', derive h o data = Ok (h', length h) /\ heap_ok h' /\ class_of h' (length h) = Some c /\ samples_of h' (length h) = Some data /\
    (forall a, In a (attributes c) -> attr h' (length h) a = attr h o a) /\
    (forall a path, observe h' (length h) (a :: path) = observe h o (a :: path)) /\
    no_self h' (length h).
Proof.
  intros K S H. destruct (derive_ok h o c data K S H) as (d & E & K' & C & Dd & L1 & L2 & L3).
  assert (A : forall a, attr (h ++ [d]) (length h) a = lookup a (c_attrs d)).
  { intros a. unfold attr. rewrite nth_new. reflexivity. }
  assert (C' : class_of (h ++ [d]) (length h) = Some c).
  { unfold class_of. rewrite nth_new. cbn [option_map]. rewrite C. reflexivity. }
  exists (h ++ [d]). split; [exact E|]. split; [exact K'|]. split; [exact C'|]. split; [|split; [|split]].
  - unfold samples_of. rewrite nth_new. cbn [option_map]. rewrite Dd. reflexivity.
  - intros a I. rewrite A. exact (L1 a I).
  - intros a path. rewrite (observe_step _ _ c a path C'), (observe_step h o c a path H).
    destruct (in_dec string_dec a (attributes c)) as [I|I]; [|reflexivity].
    rewrite A, (L1 a I). destruct (attr h o a) as [[|x|r]|] eqn:V; try reflexivity.
    apply observe_app; [exact K|exact (attr_ref_lt h o a r K V)].
  - intros a Hs. rewrite A in Hs.
    assert (V : attr h o a = Some (VRef (length h))).
    { destruct (in_dec string_dec a (attributes c)) as [I|I]; [rewrite <- (L1 a I); exact Hs|].
      destruct (string_dec a "_symbols") as [->|N]; [rewrite <- L3; exact Hs|]. rewrite (L2 a N I) in Hs. discriminate. }
    apply (attr_ref_lt h o a _ K) in V. lia.
Qed.

(** ** pickling *)
Lemma state_ok (h : heap) o c : heap_ok h -> nth_error h o = Some c ->
  exists l, state h o = Ok l /\ (forall a, lookup a l = if in_dec string_dec a (attributes (c_cls c)) then lookup a (c_attrs c) else None) /\
    (forall r, In r (refs l) -> r < length h).
Proof.
  intros K H. destruct (K o c H) as ((K1 & K2 & K3) & K4). unfold state. rewrite H. unfold saved.
  destruct (is_signal (c_cls c)) eqn:S.
  2:{ exists []. cbn [mapM]. split; [reflexivity|]. split; [|intros r []]. intros a. rewrite (attributes_none _ S). reflexivity. }
  assert (G : forall a, In a (inheritbase ++ inheritattr (c_cls c)) -> getattr h o a = Ok (gn h o a) /\ lookup a (c_attrs c) = Some (gn h o a)).
  { intros a I. apply (attributes_inherit _ S) in I. specialize (K2 a I). destruct (lookup a (c_attrs c)) as [v|] eqn:V; [|contradiction].
    unfold gn. rewrite (getattr_found h o c a v H V). split; reflexivity. }
  exists (map (fun a => (a, gn h o a)) (inheritbase ++ inheritattr (c_cls c))). split; [|split].
  - apply mapM_pairs. intros a I. exact (proj1 (G a I)).
  - intros a. destruct (in_dec string_dec a (attributes (c_cls c))) as [I|I].
    + apply (attributes_inherit _ S) in I. rewrite lookup_map_in by exact I. symmetry. exact (proj2 (G a I)).
    + apply lookup_map_notin. intros J. apply I. apply (attributes_inherit _ S). exact J.
  - intros r Hr. unfold refs in Hr. apply in_flat_map in Hr. destruct Hr as ((a & v) & Hin & Hv). cbn [snd] in Hv.
    apply in_map_iff in Hin. destruct Hin as (b & Eb & Ib). injection Eb as <- <-.
    destruct (gn h o b) as [|x|s] eqn:Gb; [destruct Hv|destruct Hv|]. destruct Hv as [<-|[]].
    exact (gn_ref h o c b s (ok_ok0 h K) H Gb).
Qed.
Lemma reach_lt (h : heap) : heap_ok h -> forall fuel os, (forall o, In o os -> o < length h) -> forall o, In o (reach fuel h os) -> o < length h.
Proof.
  intros K. induction fuel as [|fuel IH]; intros os H o; [exact (H o)|].
  cbn [reach]. apply IH. intros r Hr. apply nodup_In in Hr. apply in_app_or in Hr. destruct Hr as [Hr|Hr]; [exact (H r Hr)|].
  apply in_flat_map in Hr. destruct Hr as (s & Hs & Hr). specialize (H s Hs).
  destruct (nth_error h s) as [c|] eqn:N; [|apply nth_error_None in N; lia].
  destruct (state_ok h s c K N) as (l & E & _ & R). rewrite E in Hr. exact (R r Hr).
Qed.
Lemma mapM_all_ok {A B : Type} (f : A -> result B) l : (forall a, In a l -> exists b, f a = Ok b) -> exists bs, mapM f l = Ok bs.
Proof.
  induction l as [|a l IH]; intros H; [exists []; reflexivity|].
  destruct (H a (or_introl eq_refl)) as (b & Eb). destruct IH as (bs & Ebs); [intros x Hx; apply H; right; exact Hx|].
  exists (b :: bs). cbn [mapM]. rewrite Eb. cbn [bind]. rewrite Ebs. reflexivity.
Qed.
Definition pickled (h : heap) : heap := h ++ map (restored h) (seq 0 (length h)).
Lemma pickle_eq (h : heap) o : heap_ok h -> o < length h -> pickle h o = Ok (pickled h, length h + o).
Proof.
  intros K L. unfold pickle.
  destruct (mapM_all_ok (state h) (reach (length h) h [o])) as (bs & E).
  { intros a Ha. assert (La : a < length h).
    { apply (reach_lt h K (length h) [o]); [|exact Ha]. intros b [<-|[]]. exact L. }
    destruct (nth_error h a) as [c|] eqn:N; [|apply nth_error_None in N; lia].
    destruct (state_ok h a c K N) as (l & El & _). exists l. exact El. }
  rewrite E. reflexivity.
Qed.
Lemma pickled_nth (h : heap) o c : heap_ok h -> nth_error h o = Some c ->
  exists d, nth_error (pickled h) (length h + o) = Some d /\ c_cls d = c_cls c /\ c_data d = c_data c /\
    forall a, lookup a (c_attrs d) = if in_dec string_dec a (attributes (c_cls c)) then option_map (shift_ref (length h)) (lookup a (c_attrs c)) else None.
Proof.
  intros K H. pose proof (nth_lt h o c H) as L. destruct (state_ok h o c K H) as (l & E & Ll & _).
  exists (restored h o). split; [|unfold restored; rewrite H, E; cbn [c_cls c_data c_attrs]; split; [reflexivity|split; [reflexivity|]]].
  - unfold pickled. rewrite nth_error_app2 by lia. replace (length h + o - length h) with o by lia.
    rewrite (map_nth_error (restored h) o (seq 0 (length h)) (d := o)); [reflexivity|].
    rewrite (nth_error_nth' _ 0) by (rewrite seq_length; exact L). rewrite seq_nth by exact L. reflexivity.
  - intros a. rewrite lookup_map_vals, Ll. destruct (in_dec string_dec a (attributes (c_cls c))); reflexivity.
Qed.
Lemma pickled_length (h : heap) : length (pickled h) = length h + length h.
Proof. unfold pickled. rewrite app_length, map_length, seq_length. reflexivity. Qed.
Lemma pickled_ok (h : heap) : heap_ok h -> heap_ok (pickled h).
Proof.
  intros K o d H. rewrite pickled_length. pose proof (nth_lt _ _ _ H) as L. rewrite pickled_length in L.
  destruct (Nat.lt_ge_cases o (length h)) as [Lo|Lo].
  - unfold pickled in H. rewrite nth_error_app1 in H by exact Lo. destruct (K o d H) as (B & Q). split.
    + apply (cell_ok_mono (length h)); [lia|exact B].
    + unfold pickled. exact (pilots_ok_app h _ d B Q).
  - destruct (nth_error h (o - length h)) as [c|] eqn:N; [|apply nth_error_None in N; lia].
    destruct (pickled_nth h (o - length h) c K N) as (d' & N' & C & Dd & La).
    replace (length h + (o - length h)) with o in N' by lia. rewrite H in N'. injection N' as <-.
    destruct (K _ c N) as ((K1 & K2 & K3) & K4).
    assert (R : forall a r, lookup a (c_attrs d) = Some (VRef r) -> exists s, r = length h + s /\ lookup a (c_attrs c) = Some (VRef s)).
    { intros a r Hr. rewrite La in Hr. destruct (in_dec string_dec a (attributes (c_cls c))); [|discriminate].
      destruct (lookup a (c_attrs c)) as [[|x|s]|]; try discriminate Hr. exists s. cbn in Hr. injection Hr as <-. split; reflexivity. }
    split; [split; [|split]|].
    + intros a r Hr. destruct (R a r Hr) as (s & -> & Hs). specialize (K1 a s Hs). lia.
    + rewrite C. intros a I. rewrite La. destruct (in_dec string_dec a (attributes (c_cls c))) as [J|J]; [|contradiction].
      specialize (K2 a I). destruct (lookup a (c_attrs c)); [discriminate|contradiction].
    + rewrite La. destruct (in_dec string_dec "_symbols" (attributes (c_cls c))); [|discriminate].
      destruct (lookup "_symbols" (c_attrs c)) as [[|x|s]|]; try discriminate. contradiction K3. reflexivity.
    + intros P s e Hs He. rewrite C in P. destruct (R _ _ Hs) as (s' & -> & Hs').
      specialize (K1 _ _ Hs'). destruct (nth_error h s') as [e'|] eqn:Ne; [|apply nth_error_None in Ne; lia].
      destruct (pickled_nth h s' e' K Ne) as (e2 & Ne2 & C2 & _). rewrite He in Ne2. injection Ne2 as <-. rewrite C2.
      exact (K4 P s' e' Hs' Ne).
Qed.
Lemma pickled_observe (h : heap) : heap_ok h -> forall path o, o < length h -> observe (pickled h) (length h + o) path = observe h o path.
Proof.
  intros K. induction path as [|a path IH]; intros o L;
    (destruct (nth_error h o) as [c|] eqn:N; [|apply nth_error_None in N; lia]);
    destruct (pickled_nth h o c K N) as (d & N' & C & Dd & La); cbn [observe]; rewrite N, N'.
  - rewrite C, Dd. reflexivity.
  - rewrite C, La. destruct (in_dec string_dec a (attributes (c_cls c))); [|reflexivity].
    destruct (lookup a (c_attrs c)) as [[|x|r]|] eqn:V; try reflexivity. cbn [option_map shift_ref].
    apply IH. destruct (K o c N) as ((K1 & _) & _). exact (K1 a r V).
Qed.
Lemma pickle_observe (h : heap) o c : heap_ok h -> class_of h o = Some c ->
  exists h', pickle h o = Ok (h', length h + o) /\ heap_ok h' /\ class_of h' (length h + o) = Some c /\
    samples_of h' (length h + o) = samples_of h o /\
    (forall path, observe h' (length h + o) path = observe h o path) /\
    (no_self h o -> no_self h' (length h + o)).
Proof.
  intros K H. destruct (class_nth h o c H) as (e & He & <-). pose proof (nth_lt h o e He) as L.
  destruct (pickled_nth h o e K He) as (d & N & C & Dd & La).
  exists (pickled h). split; [exact (pickle_eq h o K L)|]. split; [exact (pickled_ok h K)|].
  split; [unfold class_of; rewrite N; cbn [option_map]; rewrite C; reflexivity|].
  split; [unfold samples_of; rewrite N, He; cbn [option_map]; rewrite Dd; reflexivity|].
  split; [intros path; exact (pickled_observe h K path o L)|].
  intros NS a Ha. unfold attr in Ha. rewrite N, La in Ha. specialize (NS a). unfold attr in NS. rewrite He in NS.
  destruct (in_dec string_dec a (attributes (c_cls e))); [|discriminate].
  destruct (lookup a (c_attrs e)) as [[|x|r]|]; try discriminate Ha. cbn in Ha. injection Ha as Hr.
  apply NS. f_equal. f_equal. lia.
Qed.

(** ** in place *)
Lemma update_nth (h : heap) o f i : nth_error (update h o f) i = if (i =? o)%nat then option_map f (nth_error h o) else nth_error h i.
Proof.
  unfold update. destruct (nth_error h o) as [c|] eqn:H.
  - pose proof (nth_lt h o c H) as L. destruct (Nat.eqb_spec i o) as [->|N].
    + rewrite nth_error_app2 by (rewrite firstn_length; lia). rewrite firstn_length. replace (o - min o (length h)) with 0 by lia. reflexivity.
    + destruct (Nat.lt_ge_cases i o) as [Li|Li].
      * rewrite nth_error_app1 by (rewrite firstn_length; lia). apply nth_error_firstn_lt; exact Li.
      * rewrite nth_error_app2 by (rewrite firstn_length; lia). rewrite firstn_length. replace (i - min o (length h)) with (S (i - S o)) by lia.
        cbn [app nth_error]. rewrite nth_error_skipn'. f_equal. lia.
  - destruct (Nat.eqb_spec i o) as [->|N]; [rewrite H; reflexivity|reflexivity].
Qed.

Lemma update_length (h : heap) o f : length (update h o f) = length h.
Proof.
  unfold update. destruct (nth_error h o) as [c|] eqn:H; [|reflexivity]. pose proof (nth_lt h o c H) as L.
  rewrite !app_length, firstn_length, skipn_length. cbn [length]. lia.
Qed.
Lemma in_place_ok (h : heap) o data : heap_ok h -> heap_ok (in_place h o data).
Proof.
  intros K i c H. unfold in_place in *. rewrite update_length. rewrite update_nth in H.
  assert (Q : exists c0, nth_error h i = Some c0 /\ c_cls c = c_cls c0 /\ c_attrs c = c_attrs c0).
  { destruct (Nat.eqb_spec i o) as [->|N].
    - destruct (nth_error h o) as [c0|]; [|discriminate]. injection H as <-. exists c0. repeat split.
    - exists c. repeat split. exact H. }
  destruct Q as (c0 & H0 & C & A). destruct (K i c0 H0) as (B & P). unfold cell_ok, pilots_ok in *. rewrite C, A. split; [exact B|].
  intros W s d Ls Nd. rewrite update_nth in Nd. destruct (Nat.eqb_spec s o) as [->|N].
  - destruct (nth_error h o) as [d0|] eqn:E0; [|discriminate]. injection Nd as <-. exact (P W o d0 Ls E0).
  - exact (P W s d Ls Nd).
Qed.
Lemma in_place_attr (h : heap) o data a : attr (in_place h o data) o a = attr h o a.
Proof. unfold attr, in_place. rewrite update_nth, Nat.eqb_refl. destruct (nth_error h o); reflexivity. Qed.
Lemma in_place_class (h : heap) o data i : class_of (in_place h o data) i = class_of h i.
Proof.
  unfold class_of, in_place. rewrite update_nth. destruct (Nat.eqb_spec i o) as [->|]; [|reflexivity].
  destruct (nth_error h o); reflexivity.
Qed.
Lemma in_place_observe (h : heap) o data c a : class_of h o = Some c -> no_self h o -> observe (in_place h o data) o [a] = observe h o [a].
Proof.
  intros H NS. assert (H' : class_of (in_place h o data) o = Some c) by (rewrite in_place_class; exact H).
  rewrite (observe_step _ _ c a [] H'), (observe_step h o c a [] H).
  destruct (in_dec string_dec a (attributes c)); [|reflexivity]. rewrite in_place_attr.
  destruct (attr h o a) as [[|x|r]|] eqn:V; try reflexivity.
  cbn [observe]. unfold in_place. rewrite update_nth. destruct (Nat.eqb_spec r o) as [->|]; [|reflexivity].
  exfalso. exact (NS a V).
Qed.

(** ** sequences *)
Lemma run_observe (l : list (op D)) : forall (h : heap) o c, heap_ok h -> is_signal c = true -> class_of h o = Some c ->
  (forall x, In x l -> match x with InPlace _ => False | _ => True end) ->
  exists h' o', run (h, o) l = Ok (h', o') /\ heap_ok h' /\ class_of h' o' = Some c /\
    forall a path, observe h' o' (a :: path) = observe h o (a :: path).
Proof.
  induction l as [|x l IH]; intros h o c K S H NI.
  - exists h, o. repeat (split; [first [reflexivity|assumption]|]). reflexivity.
  - assert (NI' : forall y, In y l -> match y with InPlace _ => False | _ => True end) by (intros y Hy; apply NI; right; exact Hy).
    specialize (NI x (or_introl eq_refl)). cbn [run]. destruct x as [data| |data]; [| |destruct NI]; cbn [step fst snd].
    + destruct (derive_observe h o c data K S H) as (h1 & E & K1 & C1 & _ & _ & O1 & _). rewrite E. cbn [bind].
      destruct (IH h1 _ c K1 S C1 NI') as (h2 & o2 & E2 & K2 & C2 & O2). exists h2, o2.
      split; [exact E2|]. split; [exact K2|]. split; [exact C2|]. intros a path. rewrite O2. apply O1.
    + destruct (pickle_observe h o c K H) as (h1 & E & K1 & C1 & _ & O1 & _). rewrite E. cbn [bind].
      destruct (IH h1 _ c K1 S C1 NI') as (h2 & o2 & E2 & K2 & C2 & O2). exists h2, o2.
      split; [exact E2|]. split; [exact K2|]. split; [exact C2|]. intros a path. rewrite O2. apply O1.
Qed.
Lemma run_observe1 (l : list (op D)) : forall (h : heap) o c, heap_ok h -> is_signal c = true -> class_of h o = Some c -> no_self h o ->
  exists h' o', run (h, o) l = Ok (h', o') /\ heap_ok h' /\ class_of h' o' = Some c /\ no_self h' o' /\
    forall a, observe h' o' [a] = observe h o [a].
Proof.
  induction l as [|x l IH]; intros h o c K S H NS.
  - exists h, o. repeat (split; [first [reflexivity|assumption]|]). reflexivity.
  - cbn [run]. destruct x as [data| |data]; cbn [step fst snd].
    + destruct (derive_observe h o c data K S H) as (h1 & E & K1 & C1 & _ & _ & O1 & N1). rewrite E. cbn [bind].
      destruct (IH h1 _ c K1 S C1 N1) as (h2 & o2 & E2 & K2 & C2 & N2 & O2). exists h2, o2.
      repeat (split; [assumption|]). intros a. rewrite O2. apply O1.
    + destruct (pickle_observe h o c K H) as (h1 & E & K1 & C1 & _ & O1 & N1). rewrite E. cbn [bind].
      destruct (IH h1 _ c K1 S C1 (N1 NS)) as (h2 & o2 & E2 & K2 & C2 & N2 & O2). exists h2, o2.
      repeat (split; [assumption|]). intros a. rewrite O2. apply O1.
    + cbn [bind]. assert (C1 : class_of (in_place h o data) o = Some c) by (rewrite in_place_class; exact H).
      assert (N1 : no_self (in_place h o data) o) by (intros a; rewrite in_place_attr; exact (NS a)).
      destruct (IH _ _ c (in_place_ok h o data K) S C1 N1) as (h2 & o2 & E2 & K2 & C2 & N2 & O2). exists h2, o2.
      repeat (split; [assumption|]). intros a. rewrite O2. exact (in_place_observe h o data c a H NS).
Qed.
Lemma last_data (l : list (op D)) (h : heap) o c data : heap_ok h -> is_signal c = true -> class_of h o = Some c -> no_self h o ->
  exists h' o', run (h, o) (l ++ [Derive data]) = Ok (h', o') /\ samples_of h' o' = Some data.
Proof.
  intros K S H NS. destruct (run_observe1 l h o c K S H NS) as (h1 & o1 & E1 & K1 & C1 & _ & _).
  destruct (derive_observe h1 o1 c data K1 S C1) as (h2 & E2 & _ & _ & Sm & _).
  exists h2, (length h1). split; [|exact Sm].
  assert (A : forall (l : list (op D)) p q, run p l = Ok q -> run p (l ++ [Derive data]) = step q (Derive data)).
  { clear. induction l as [|x l IH]; intros p q H; cbn [run app] in *.
    - injection H as ->. destruct (step q (Derive data)); reflexivity.
    - destruct (step p x); [|discriminate]. cbn [bind] in *. exact (IH _ _ H). }
  rewrite (A l _ _ E1). cbn [step fst snd]. exact E2.
Qed.

(** ** what is lost *)
Lemma concatenate_lost (h : heap) o c data : class_of h o = Some c ->
  exists h', concatenate h o data = Ok (h', length h) /\ class_of h' (length h) = Some c /\ samples_of h' (length h) = Some data /\
    forall a, getattr h' (length h) a = Err (if cls_eqb c WithPilots then RecursionError else AttributeError).
Proof.
  intros H. destruct (class_nth h o c H) as (e & He & <-).
  eexists. unfold concatenate, alloc. rewrite He. cbn [finalize bind]. split; [reflexivity|].
  unfold class_of, samples_of. rewrite nth_new. split; [reflexivity|]. split; [reflexivity|].
  set (d := {| c_cls := c_cls e; c_data := data; c_attrs := [] |}).
  assert (R : forall fuel a, getattr_f (S fuel) (h ++ [d]) (length h) a = if cls_eqb (c_cls e) WithPilots then Err RecursionError else Err AttributeError).
  { induction fuel as [|fuel IH]; intros a.
    - cbn [getattr_f]. rewrite nth_new. cbn [c_attrs lookup d c_cls bind]. destruct (cls_eqb (c_cls e) WithPilots); reflexivity.
    - remember (S fuel) as f. cbn [getattr_f]. rewrite nth_new. cbn [c_attrs lookup d c_cls]. rewrite IH.
      destruct (cls_eqb (c_cls e) WithPilots); reflexivity. }
  intros a. unfold getattr. rewrite R. destruct (cls_eqb (c_cls e) WithPilots); reflexivity.
Qed.
Lemma derive_drops (h : heap) o c data a : heap_ok h -> is_signal c = true -> class_of h o = Some c ->
  a <> "_symbols" -> ~ In a (attributes c) -> exists h', derive h o data = Ok (h', length h) /\ attr h' (length h) a = None.
Proof.
  intros K S H N I. destruct (derive_ok h o c data K S H) as (d & E & _ & _ & _ & _ & L & _).
  exists (h ++ [d]). split; [exact E|]. unfold attr. rewrite nth_new. exact (L a N I).
Qed.
Lemma pickle_drops (h : heap) o c a : heap_ok h -> class_of h o = Some c -> ~ In a (attributes c) ->
  exists h', pickle h o = Ok (h', length h + o) /\ attr h' (length h + o) a = None.
Proof.
  intros K H I. destruct (class_nth h o c H) as (e & He & <-). exists (pickled h).
  split; [exact (pickle_eq h o K (nth_lt h o e He))|]. destruct (pickled_nth h o e K He) as (d & N & _ & _ & La).
  unfold attr. rewrite N, La. destruct (in_dec string_dec a (attributes (c_cls e))); [contradiction|reflexivity].
Qed.

(** ** setting attributes *)
Lemma setattr_length (h : heap) o a v : length (setattr h o a v) = length h.
Proof. apply update_length. Qed.
Lemma setattr_attr (h : heap) o a v b : o < length h -> attr (setattr h o a v) o b = if (a =? b)%string then Some v else attr h o b.
Proof.
  intros L. unfold attr, setattr. rewrite update_nth, Nat.eqb_refl. destruct (nth_error h o) as [c|] eqn:E; [|apply nth_error_None in E; lia].
  cbn [option_map c_attrs]. apply lookup_set_attr.
Qed.
Lemma setattr_other (h : heap) o a v i : i <> o -> nth_error (setattr h o a v) i = nth_error h i.
Proof. intros N. unfold setattr. rewrite update_nth. destruct (Nat.eqb_spec i o); [contradiction|reflexivity]. Qed.
Lemma setattr_class (h : heap) o a v i : class_of (setattr h o a v) i = class_of h i.
Proof.
  unfold class_of, setattr. rewrite update_nth. destruct (Nat.eqb_spec i o) as [->|]; [|reflexivity]. destruct (nth_error h o); reflexivity.
Qed.
Lemma setattr_samples (h : heap) o a v i : samples_of (setattr h o a v) i = samples_of h i.
Proof.
  unfold samples_of, setattr. rewrite update_nth. destruct (Nat.eqb_spec i o) as [->|]; [|reflexivity]. destruct (nth_error h o); reflexivity.
Qed.
Lemma setattrs_props (l : list (string * val)) : forall (h : heap) o, o < length h -> NoDup (map fst l) ->
  length (setattrs h o l) = length h /\
  (forall b, attr (setattrs h o l) o b = match lookup b l with Some v => Some v | None => attr h o b end) /\
  (forall i, i <> o -> nth_error (setattrs h o l) i = nth_error h i) /\
  (forall i, class_of (setattrs h o l) i = class_of h i) /\
  (forall i, samples_of (setattrs h o l) i = samples_of h i).
Proof.
  induction l as [|[k v] l IH]; intros h o L ND.
  - repeat split.
  - unfold setattrs. cbn [fold_left fst snd]. fold (setattrs (setattr h o k v) o l).
    cbn [map fst] in ND. apply NoDup_cons_iff in ND. destruct ND as (NI & ND).
    assert (L' : o < length (setattr h o k v)) by (rewrite setattr_length; exact L).
    destruct (IH (setattr h o k v) o L' ND) as (A & B & C & E & F).
    split; [rewrite A; apply setattr_length|]. split; [|split; [|split]].
    + intros b. rewrite B, setattr_attr by exact L. cbn [lookup].
      destruct (k =? b)%string eqn:Q; [|reflexivity]. apply String.eqb_eq in Q. subst b.
      assert (X : lookup k l = None).
      { clear -NI. induction l as [|[j w] l IH]; [reflexivity|]. cbn [lookup]. cbn [map fst In] in NI.
        destruct (j =? k)%string eqn:Q; [apply String.eqb_eq in Q; exfalso; apply NI; left; exact Q|]. apply IH. intros X. apply NI. right. exact X. }
      rewrite X. reflexivity.
    + intros i N. rewrite C by exact N. apply setattr_other. exact N.
    + intros i. rewrite E. apply setattr_class.
    + intros i. rewrite F. apply setattr_samples.
Qed.
Lemma inherit_nodup c : NoDup (inheritbase ++ inheritattr c).
Proof.
  destruct c; cbn [inheritbase inheritattr app]; repeat (constructor; [cbn [In]; intuition discriminate|]); constructor.
Qed.
Lemma attr_nth (h : heap) o c a : nth_error h o = Some c -> attr h o a = lookup a (c_attrs c).
Proof. intros H. unfold attr. rewrite H. reflexivity. Qed.
Lemma attr_app (h h2 : heap) o a : o < length h -> attr (h ++ h2) o a = attr h o a.
Proof. intros L. unfold attr. rewrite nth_error_app1 by exact L. reflexivity. Qed.

(** ** copying the attributes of another object *)
Lemma copy_inherits_ok (h : heap) old new c : (forall a, In a (attributes c) -> attr h old a <> None) ->
  is_signal c = true -> class_of h old = Some c -> new < length h ->
  exists h', copy_inherits h old new = Ok h' /\ length h' = length h /\
    (forall a, In a (attributes c) -> attr h' new a = attr h old a) /\
    (forall a, ~ In a (attributes c) -> attr h' new a = attr h new a) /\
    (forall i, i <> new -> nth_error h' i = nth_error h i) /\
    (forall i, class_of h' i = class_of h i) /\ (forall i, samples_of h' i = samples_of h i).
Proof.
  intros K2 S H L. destruct (class_nth h old c H) as (e & He & <-).
  unfold copy_inherits. rewrite He.
  assert (G : forall a, In a (inheritbase ++ inheritattr (c_cls e)) -> getattr h old a = Ok (gn h old a) /\ attr h old a = Some (gn h old a)).
  { intros a I. apply (attributes_inherit _ S) in I. specialize (K2 a I). rewrite (attr_nth h old e a He) in *.
    destruct (lookup a (c_attrs e)) as [v|] eqn:V; [|contradiction].
    unfold gn. rewrite (getattr_found h old e a v He V). split; reflexivity. }
  rewrite (mapM_pairs _ (gn h old)) by (intros a I; exact (proj1 (G a I))). cbn [bind].
  set (l := map (fun a => (a, gn h old a)) (inheritbase ++ inheritattr (c_cls e))).
  assert (ND : NoDup (map fst l)).
  { unfold l. rewrite map_map. cbn [fst]. rewrite map_id. apply inherit_nodup. }
  destruct (setattrs_props l h new L ND) as (A & B & C & E & F).
  exists (setattrs h new l). split; [reflexivity|]. split; [exact A|]. split; [|split; [|split; [exact C|split; [exact E|exact F]]]].
  - intros a I. rewrite B. apply (attributes_inherit _ S) in I. unfold l. rewrite lookup_map_in by exact I. symmetry. exact (proj2 (G a I)).
  - intros a I. rewrite B. unfold l. rewrite lookup_map_notin; [reflexivity|]. intros J. apply I. apply (attributes_inherit _ S). exact J.
Qed.
Lemma alloc_ok (h : heap) c data t d : heap_ok0 h -> nth_error h t = Some d -> is_signal c = true ->
  exists l, alloc h c data (Some t) = Ok (h ++ [{| c_cls := c; c_data := data; c_attrs := l |}], length h) /\
    forall a, lookup a l = if (("_symbols" =? a)%string && match fin_sym h t with Some _ => true | None => false end)%bool then fin_sym h t
                           else if in_dec string_dec a (attributes c) then Some (gn h t a) else None.
Proof.
  intros K H S. destruct (finalize_ok h c t d K H S) as (l & E & L). exists l. unfold alloc. rewrite E. split; [reflexivity|exact L].
Qed.

(** ** recreate_from_np_array *)
Definition listed (c : cls) (k : string) : Prop := In (append "_" k) (attributes c).
Lemma member_in a l : member a l = true <-> In a l.
Proof.
  unfold member. rewrite existsb_exists. split.
  - intros (x & I & E). apply String.eqb_eq in E. subst. exact I.
  - intros I. exists a. split; [exact I|apply String.eqb_refl].
Qed.
Lemma append_inj k k' : append "_" k = append "_" k' -> k = k'.
Proof. intros H. injection H as H. exact H. Qed.
Lemma set_kwargs_ok c o : is_signal c = true -> forall kw (h : heap), o < length h -> NoDup (map fst kw) ->
  (forall k, In k (map fst kw) -> ~ In k (attributes c)) ->
  (forall k, In k (map fst kw) -> ~ listed c k -> ~ In k (readonly c)) ->
  exists h', set_kwargs h c o kw = Ok h' /\ length h' = length h /\
    (forall k, listed c k -> attr h' o (append "_" k) = match lookup k kw with Some v => Some v | None => attr h o (append "_" k) end) /\
    (forall k, ~ listed c k -> ~ In k (attributes c) -> attr h' o k = match lookup k kw with Some v => Some v | None => attr h o k end) /\
    (forall i, i <> o -> nth_error h' i = nth_error h i) /\
    (forall i, class_of h' i = class_of h i) /\ (forall i, samples_of h' i = samples_of h i).
Proof.
  intros S. induction kw as [|[k v] kw IH]; intros h L ND NA NR.
  - exists h. cbn [set_kwargs lookup]. repeat split.
  - cbn [map fst] in ND. apply NoDup_cons_iff in ND. destruct ND as (NI & ND).
    assert (NA' : forall j, In j (map fst kw) -> ~ In j (attributes c)) by (intros j Hj; apply NA; right; exact Hj).
    assert (NR' : forall j, In j (map fst kw) -> ~ listed c j -> ~ In j (readonly c)) by (intros j Hj; apply NR; right; exact Hj).
    assert (X : forall l, ~ In k (map fst l) -> lookup k (D := D) l = None).
    { clear. induction l as [|[j w] l IH]; [reflexivity|]. intros NI. cbn [lookup]. cbn [map fst In] in NI.
      destruct (j =? k)%string eqn:Q; [apply String.eqb_eq in Q; exfalso; apply NI; left; exact Q|]. apply IH. intros X. apply NI. right. exact X. }
    specialize (X kw NI).
    cbn [set_kwargs].
    destruct (member (append "_" k) (inheritbase ++ inheritattr c)) eqn:Mb.
    + assert (Lk : listed c k) by (apply (attributes_inherit c S); apply member_in; exact Mb).
      destruct (IH (setattr h o (append "_" k) v)) as (h' & E & Ln & A & B & C & F & G); [rewrite setattr_length; exact L|exact ND|exact NA'|exact NR'|].
      exists h'. split; [exact E|]. split; [rewrite Ln; apply setattr_length|]. split; [|split; [|split; [|split]]].
      * intros j Hj. rewrite (A j Hj), setattr_attr by exact L. cbn [lookup].
        destruct (k =? j)%string eqn:Q.
        -- apply String.eqb_eq in Q. subst j. rewrite X, String.eqb_refl. reflexivity.
        -- destruct (append "_" k =? append "_" j)%string eqn:Q2; [|reflexivity].
           apply String.eqb_eq in Q2. apply append_inj in Q2. subst j. rewrite String.eqb_refl in Q. discriminate.
      * intros j Hj Ha. rewrite (B j Hj Ha), setattr_attr by exact L. cbn [lookup].
        destruct (k =? j)%string eqn:Q; [apply String.eqb_eq in Q; subst j; contradiction|].
        destruct (append "_" k =? j)%string eqn:Q2; [|reflexivity]. apply String.eqb_eq in Q2. subst j. contradiction.
      * intros i Ni. rewrite (C i Ni). apply setattr_other. exact Ni.
      * intros i. rewrite F. apply setattr_class.
      * intros i. rewrite G. apply setattr_samples.
    + assert (Lk : ~ listed c k).
      { intros Lk. apply (attributes_inherit c S) in Lk. apply member_in in Lk. rewrite Lk in Mb. discriminate. }
      destruct (member k (readonly c)) eqn:Mr; [exfalso; apply member_in in Mr; exact (NR k (or_introl eq_refl) Lk Mr)|].
      pose proof (NA k (or_introl eq_refl)) as NAk.
      destruct (IH (setattr h o k v)) as (h' & E & Ln & A & B & C & F & G); [rewrite setattr_length; exact L|exact ND|exact NA'|exact NR'|].
      exists h'. split; [exact E|]. split; [rewrite Ln; apply setattr_length|]. split; [|split; [|split; [|split]]].
      * intros j Hj. rewrite (A j Hj), setattr_attr by exact L. cbn [lookup].
        destruct (k =? j)%string eqn:Q; [apply String.eqb_eq in Q; subst j; contradiction|].
        destruct (k =? append "_" j)%string eqn:Q2; [|reflexivity]. apply String.eqb_eq in Q2. subst k. contradiction.
      * intros j Hj Ha. rewrite (B j Hj Ha), setattr_attr by exact L. cbn [lookup].
        destruct (k =? j)%string eqn:Q; [apply String.eqb_eq in Q; subst j; rewrite X; reflexivity|reflexivity].
      * intros i Ni. rewrite (C i Ni). apply setattr_other. exact Ni.
      * intros i. rewrite F. apply setattr_class.
      * intros i. rewrite G. apply setattr_samples.
Qed.
(** keyword arguments after the sampling rate has been added *)
Definition full_kw (rate : D -> D -> D -> result D) (h : heap) (o : nat) (kw : list (string * val)) : result (list (string * val)) :=
  match lookup "fb" kw, lookup "fs" kw with
  | Some fb', None =>
      let! fs := getattr h o "_fs" in let! fb := getattr h o "_fb" in
      match fs, fb, fb' with VLeaf fs, VLeaf fb, VLeaf fb' => let! r := rate fs fb fb' in Ok (kw ++ [("fs", VLeaf r)]) | _, _, _ => Err TypeError end
  | _, _ => Ok kw
  end.
Lemma fs_fb_listed c : is_signal c = true -> listed c "fs" /\ listed c "fb".
Proof. unfold listed. destruct c; intros H; try discriminate H; split; cbn; tauto. Qed.
Lemma recreate_gen rate (h : heap) o arr c kw kw' : heap_ok h -> is_signal c = true -> class_of h o = Some c -> class_of h arr <> None ->
  full_kw rate h o kw = Ok kw' -> NoDup (map fst kw') ->
  (forall k, In k (map fst kw') -> ~ In k (attributes c)) ->
  (forall k, In k (map fst kw') -> ~ listed c k -> ~ In k (readonly c)) ->
  exists h', recreate rate h o arr kw = Ok (h', length h) /\
    class_of h' (length h) = Some c /\ samples_of h' (length h) = samples_of h arr /\
    (forall k, listed c k -> attr h' (length h) (append "_" k) = match lookup k kw' with Some v => Some v | None => attr h o (append "_" k) end) /\
    (forall k v, ~ listed c k -> lookup k kw' = Some v -> attr h' (length h) k = Some v) /\
    (forall i, i < length h -> nth_error h' i = nth_error h i).
Proof.
  intros K S H Ha Ek ND NA NR. destruct (class_nth h o c H) as (e & He & Ce). pose proof (nth_lt h o e He) as Lo.
  destruct (nth_error h arr) as [d|] eqn:Hd; [|unfold class_of in Ha; rewrite Hd in Ha; contradiction Ha; reflexivity].
  unfold recreate. rewrite He, Hd, Ce.
  destruct (alloc_ok h c (c_data d) arr d (ok_ok0 h K) Hd S) as (l & El & _). rewrite El. cbn [bind fst snd].
  set (nw := {| c_cls := c; c_data := c_data d; c_attrs := l |}).
  destruct (copy_inherits_ok (h ++ [nw]) o (length h) c) as (h1 & E1 & Ln1 & A1 & B1 & C1 & F1 & G1).
  { intros a I. rewrite attr_app by exact Lo. rewrite (attr_nth h o e a He). destruct (K o e He) as ((_ & K2 & _) & _). apply K2. rewrite Ce. exact I. }
  { exact S. }
  { unfold class_of. rewrite (nth_app h [nw] o e He). cbn [option_map]. rewrite Ce. reflexivity. }
  { rewrite app_length. cbn [length]. lia. }
  rewrite E1. cbn [bind]. fold (full_kw rate h o kw). rewrite Ek. cbn [bind].
  assert (L1 : length h < length h1) by (rewrite Ln1, app_length; cbn [length]; lia).
  destruct (set_kwargs_ok c (length h) S kw' h1 L1 ND NA NR) as (h2 & E2 & Ln2 & A2 & B2 & C2 & F2 & G2).
  rewrite E2. cbn [bind]. exists h2. split; [reflexivity|]. split; [|split; [|split; [|split]]].
  - rewrite F2, F1. unfold class_of. rewrite nth_new. reflexivity.
  - rewrite G2, G1. unfold samples_of. rewrite nth_new, Hd. reflexivity.
  - intros k Hk. rewrite (A2 k Hk), (A1 _ Hk), attr_app by exact Lo. reflexivity.
  - intros k v Nk Ev. destruct (in_dec string_dec k (attributes c)) as [I|I].
    + exfalso. apply (NA k); [|exact I]. clear -Ev. induction kw' as [|[j w] kw' IH]; [discriminate|]. cbn [lookup] in Ev. cbn [map fst].
      destruct (j =? k)%string eqn:Q; [apply String.eqb_eq in Q; left; exact Q|right; exact (IH Ev)].
    + rewrite (B2 k Nk I), Ev. reflexivity.
  - intros i Li. rewrite C2 by lia. rewrite C1 by lia. apply nth_error_app1. exact Li.
Qed.
Lemma lookup_app_last (kw : list (string * val)) k k0 v : lookup k0 kw = None ->
  lookup k (kw ++ [(k0, v)]) = if (k0 =? k)%string then Some v else lookup k kw.
Proof.
  induction kw as [|[j w] kw IH]; intros H; cbn [app lookup].
  - reflexivity.
  - cbn [lookup] in H. destruct (j =? k0)%string eqn:Q; [discriminate|]. rewrite (IH H).
    destruct (j =? k)%string eqn:Q2; [|reflexivity]. destruct (k0 =? k)%string eqn:Q3; [|reflexivity].
    apply String.eqb_eq in Q2. apply String.eqb_eq in Q3. subst. rewrite String.eqb_refl in Q. discriminate.
Qed.
Lemma lookup_none_notin (kw : list (string * val)) k : lookup k kw = None -> ~ In k (map fst kw).
Proof.
  induction kw as [|[j w] kw IH]; intros H; [intros []|]. cbn [lookup] in H. cbn [map fst In].
  destruct (j =? k)%string eqn:Q; [discriminate|]. intros [->|I]; [rewrite String.eqb_refl in Q; discriminate|exact (IH H I)].
Qed.
Lemma recreate_kept rate (h : heap) o arr c kw : heap_ok h -> is_signal c = true -> class_of h o = Some c -> class_of h arr <> None ->
  (lookup "fb" kw = None \/ lookup "fs" kw <> None) -> NoDup (map fst kw) ->
  (forall k, In k (map fst kw) -> ~ In k (attributes c)) ->
  (forall k, In k (map fst kw) -> ~ listed c k -> ~ In k (readonly c)) ->
  exists h', recreate rate h o arr kw = Ok (h', length h) /\
    class_of h' (length h) = Some c /\ samples_of h' (length h) = samples_of h arr /\
    (forall k, listed c k -> attr h' (length h) (append "_" k) = match lookup k kw with Some v => Some v | None => attr h o (append "_" k) end) /\
    (forall k v, ~ listed c k -> lookup k kw = Some v -> attr h' (length h) k = Some v) /\
    (forall i, i < length h -> nth_error h' i = nth_error h i).
Proof.
  intros K S H Ha Hf ND NA NR. apply (recreate_gen rate h o arr c kw kw K S H Ha); [|exact ND|exact NA|exact NR].
  unfold full_kw. destruct Hf as [-> |Hf]; [reflexivity|]. destruct (lookup "fb" kw); [|reflexivity].
  destruct (lookup "fs" kw); [reflexivity|contradiction Hf; reflexivity].
Qed.
Lemma recreate_rate rate (h : heap) o arr c kw fs fb fb' r : heap_ok h -> is_signal c = true -> class_of h o = Some c -> class_of h arr <> None ->
  attr h o "_fs" = Some (VLeaf fs) -> attr h o "_fb" = Some (VLeaf fb) ->
  lookup "fb" kw = Some (VLeaf fb') -> lookup "fs" kw = None -> rate fs fb fb' = Ok r -> NoDup (map fst kw) ->
  (forall k, In k (map fst kw) -> ~ In k (attributes c)) ->
  (forall k, In k (map fst kw) -> ~ listed c k -> ~ In k (readonly c)) ->
  exists h', recreate rate h o arr kw = Ok (h', length h) /\
    class_of h' (length h) = Some c /\ samples_of h' (length h) = samples_of h arr /\
    attr h' (length h) "_fs" = Some (VLeaf r) /\ attr h' (length h) "_fb" = Some (VLeaf fb') /\
    (forall k, listed c k -> k <> "fs" -> attr h' (length h) (append "_" k) = match lookup k kw with Some v => Some v | None => attr h o (append "_" k) end) /\
    (forall i, i < length h -> nth_error h' i = nth_error h i).
Proof.
  intros K S H Ha Afs Afb Lfb Lfs Er ND NA NR.
  destruct (class_nth h o c H) as (e & He & Ce). rewrite (attr_nth h o e _ He) in Afs. rewrite (attr_nth h o e _ He) in Afb.
  destruct (fs_fb_listed c S) as (Ifs & Ifb).
  destruct (recreate_gen rate h o arr c kw (kw ++ [("fs", VLeaf r)]) K S H Ha) as (h' & E & C & Sm & A & _ & O).
  - unfold full_kw. rewrite Lfb, Lfs, (getattr_found h o e _ _ He Afs). cbn [bind]. rewrite (getattr_found h o e _ _ He Afb). cbn [bind].
    rewrite Er. reflexivity.
  - rewrite map_app. cbn [map fst]. apply NoDup_app_snoc; [exact ND|exact (lookup_none_notin kw _ Lfs)].
  - intros k Ik. rewrite map_app in Ik. apply in_app_or in Ik. destruct Ik as [Ik|[<-|[]]]; [exact (NA k Ik)|].
    destruct c; try discriminate S; cbn; intuition discriminate.
  - intros k Ik Nk. rewrite map_app in Ik. apply in_app_or in Ik. destruct Ik as [Ik|[<-|[]]]; [exact (NR k Ik Nk)|contradiction].
  - exists h'. split; [exact E|]. split; [exact C|]. split; [exact Sm|]. split; [|split; [|split]].
    + change "_fs" with (append "_" "fs"). rewrite (A "fs" Ifs), (lookup_app_last kw "fs" "fs" _ Lfs). reflexivity.
    + change "_fb" with (append "_" "fb"). rewrite (A "fb" Ifb), (lookup_app_last kw "fb" "fs" _ Lfs). cbn. rewrite Lfb. reflexivity.
    + intros k Hk N. rewrite (A k Hk), (lookup_app_last kw k "fs" _ Lfs). destruct ("fs" =? k)%string eqn:Q; [|reflexivity].
      apply String.eqb_eq in Q. subst k. contradiction N. reflexivity.
    + exact O.
Qed.
End Objects.
