From Coq Require Import String List ZArith Bool Arith Reals Lia Lra Permutation.
From Verif Require Import Common.Py Common.ListX Common.Cplx Common.SumX Model.Helpers Model.Sync Model.Constellation Model.Decision Model.SignalFrom
  Model.Transmitter Model.MatIo
  Spec.MatS Spec.ImpairSpec Spec.Geometry Spec.Metrics Proofs.MapP Proofs.QamP Proofs.ImpairQ Proofs.ImpairR Proofs.TxP Proofs.QualityP Proofs.SignalFromP.
Import ListNotations.

Lemma F2_length {A B} (P : A -> B -> Prop) l l' : Forall2 P l l' -> length l = length l'.
Proof. induction 1; cbn; congruence. Qed.
Lemma mat_get_ok file k a : holds file k a -> mat_get file k = Ok a.
Proof.
  intros [ND Hin]. induction file as [|[k' a'] file IH]; [contradiction|]. cbn [mat_get].
  destruct (String.eqb_spec k k') as [->|H].
  - destruct Hin as [E|Hin]; [congruence|]. cbn in ND. inversion ND; subst. exfalso.
    apply H1. change k' with (fst (k', a)). now apply in_map.
  - destruct Hin as [E|Hin]; [congruence|]. cbn in ND. inversion ND; subst. now apply IH.
Qed.
Lemma mat_get_missing file k : ~ In k (map fst file) -> mat_get file k = Err KeyError.
Proof.
  induction file as [|[k' a'] file IH]; intros H; [reflexivity|]. cbn [mat_get].
  destruct (String.eqb_spec k k') as [->|Hk]; [exfalso; apply H; now left|]. apply IH. intros Hin. apply H. now right.
Qed.

Lemma broadcast_same {A B} (a : list A) (b : list B) : length a = length b -> broadcast a b = Ok (combine a b).
Proof.
  intros H. unfold broadcast. destruct b as [|y [|y' b]].
  - destruct a; [reflexivity|discriminate].
  - destruct a as [|x [|]]; try discriminate. reflexivity.
  - destruct a as [|x [|x' a]]; try discriminate. rewrite H, Nat.eqb_refl. reflexivity.
Qed.
Lemma cplx1_ok a b : length a = length b -> exists o, cplx1 a b = Ok o /\ length o = length a /\
  forall i x y, nth_error a i = Some x -> nth_error b i = Some y -> nth_error o i = Some (x + Ci * y)%C.
Proof.
  intros H. unfold cplx1. rewrite broadcast_same by assumption. cbn [bind]. eexists. split; [reflexivity|].
  split; [rewrite map_length, combine_length; lia|]. intros i x y Hx Hy. rewrite nth_error_map.
  assert (E : nth_error (combine a b) i = Some (x, y)).
  { clear H. revert b i Hx Hy. induction a as [|a0 a IH]; intros [|b0 b] [|i] Hx Hy; cbn in *; try discriminate; [congruence|now apply IH]. }
  rewrite E. reflexivity.
Qed.
Lemma combine_nth_both {A B} (a : list A) (b : list B) i x y : nth_error a i = Some x -> nth_error b i = Some y ->
  nth_error (combine a b) i = Some (x, y).
Proof. revert b i. induction a as [|a0 a IH]; intros [|b0 b] [|i] Hx Hy; cbn in *; try discriminate; [congruence|now apply IH]. Qed.
Lemma cplx2_ok a b r c : has_shape a r c -> has_shape b r c -> exists o, cplx2 a b = Ok o /\ has_shape o r c /\
  forall i j x y, entry a i j = Some x -> entry b i j = Some y -> entry o i j = Some (x + Ci * y)%C.
Proof.
  intros [La Ra] [Lb Rb]. unfold cplx2. rewrite broadcast_same by congruence. cbn [bind].
  destruct (mapM (fun p : list C * list C => cplx1 (fst p) (snd p)) (combine a b)) as [o|e] eqn:E.
  - exists o. split; [reflexivity|].
    pose proof (mapM_length _ _ _ E) as Lo. rewrite combine_length, La, Lb, Nat.min_id in Lo.
    assert (K : forall i ra rb, nth_error a i = Some ra -> nth_error b i = Some rb -> exists ro, nth_error o i = Some ro /\ cplx1 ra rb = Ok ro).
    { intros i ra rb Ha Hb. pose proof (combine_nth_both _ _ _ _ _ Ha Hb) as Hc.
      destruct (mapM_nth _ _ _ i _ E Hc) as (ro & F1 & F2). exists ro. split; assumption. }
    assert (Kc : forall ra rb, In ra a -> In rb b -> length ra = length rb) by (intros; rewrite Ra, Rb by assumption; reflexivity).
    split; [split; [exact Lo|]|].
    + intros row Hin. apply In_nth_error in Hin. destruct Hin as [i Hi].
      assert (i < r) by (rewrite <- Lo; apply nth_error_Some; congruence).
      destruct (nth_error a i) as [ra|] eqn:Ea; [|apply nth_error_None in Ea; lia].
      destruct (nth_error b i) as [rb|] eqn:Eb; [|apply nth_error_None in Eb; lia].
      destruct (K i ra rb Ea Eb) as (ro & F1 & F2). assert (ro = row) by congruence. subst ro.
      pose proof (nth_error_In _ _ Ea) as Ia. pose proof (nth_error_In _ _ Eb) as Ib.
      destruct (cplx1_ok ra rb (Kc _ _ Ia Ib)) as (o' & F3 & F4 & _). assert (o' = row) by congruence. subst o'.
      rewrite F4. now apply Ra.
    + intros i j x y Hx Hy. unfold entry in *.
      destruct (nth_error a i) as [ra|] eqn:Ea; [|discriminate]. destruct (nth_error b i) as [rb|] eqn:Eb; [|discriminate].
      destruct (K i ra rb Ea Eb) as (ro & F1 & F2). rewrite F1.
      pose proof (nth_error_In _ _ Ea) as Ia. pose proof (nth_error_In _ _ Eb) as Ib.
      destruct (cplx1_ok ra rb (Kc _ _ Ia Ib)) as (o' & F3 & _ & F4). assert (o' = ro) by congruence. subst o'.
      now apply F4.
  - exfalso. assert (G : exists o, mapM (fun p : list C * list C => cplx1 (fst p) (snd p)) (combine a b) = Ok o).
    { assert (Q : forall l, (forall p, In p l -> length (fst p) = length (snd p)) ->
        exists o, mapM (fun p : list C * list C => cplx1 (fst p) (snd p)) l = Ok o).
      { induction l as [|p l IH]; intros H; [exists []; reflexivity|].
        destruct (cplx1_ok (fst p) (snd p) (H p (or_introl eq_refl))) as (o & F & _).
        destruct IH as (os & G); [intros; apply H; now right|]. exists (o :: os). cbn [mapM]. rewrite F. cbn [bind]. rewrite G. reflexivity. }
      apply Q. intros [p q] Hin. cbn [fst snd]. pose proof (in_combine_l _ _ _ _ Hin). pose proof (in_combine_r _ _ _ _ Hin).
      rewrite Ra, Rb by assumption. reflexivity. }
    destruct G as [o G]. congruence.
Qed.

Lemma row_len_shape {A} (a : list (list A)) r c : has_shape a r c -> 0 < r -> row_len a = c.
Proof. intros [L H] Hr. destruct a as [|x a]; [cbn in L; lia|]. cbn [row_len]. apply H. now left. Qed.
Lemma transpose_ok (a : list (list C)) r c : has_shape a r c -> 0 < r -> has_shape (transpose a) c r /\
  forall i j x, entry a i j = Some x -> entry (transpose a) j i = Some x.
Proof.
  intros Hs Hr. unfold transpose. rewrite (row_len_shape a r c) by assumption. destruct Hs as [L H].
  split; [split; [now rewrite map_length, seq_length|]|].
  - intros row Hin. apply in_map_iff in Hin. destruct Hin as (j & <- & _). now rewrite map_length.
  - intros i j x Hx. unfold entry in *. destruct (nth_error a i) as [row|] eqn:E; [|discriminate].
    assert (Hj : j < c). { rewrite <- (H row) by (eapply nth_error_In; exact E). apply nth_error_Some. congruence. }
    rewrite nth_error_map_seq by assumption. cbn [Nat.add].
    rewrite (map_nth_error (fun row : list C => nth j row C0) i a E). f_equal. now apply nth_error_nth.
Qed.

Lemma mat_single file k a tr pm r c : holds file k a -> has_shape a r c -> 0 < r ->
  exists o, ndarray_from_matlab file [[k]] tr false pm = Ok o /\
    if tr then has_shape o c r /\ forall i j x, entry a i j = Some x -> entry o j i = Some x else o = a.
Proof.
  intros Hh Hs Hr. unfold ndarray_from_matlab, one_entry. rewrite (mat_get_ok file k a Hh). cbn [bind].
  destruct tr; eexists; (split; [reflexivity|]); [|reflexivity]. now apply transpose_ok.
Qed.
Lemma mat_pair file re im a b tr pm r c : holds file re a -> holds file im b -> has_shape a r c -> has_shape b r c -> 0 < r ->
  exists o, ndarray_from_matlab file [[re; im]] tr false pm = Ok o /\
    (if tr then has_shape o c r else has_shape o r c) /\
    forall i j x y, entry a i j = Some x -> entry b i j = Some y ->
      exists z, (if tr then entry o j i else entry o i j) = Some z /\ quadratures x y z.
Proof.
  intros Ha Hb Sa Sb Hr. unfold ndarray_from_matlab, one_entry.
  rewrite (mat_get_ok file re a Ha), (mat_get_ok file im b Hb). cbn [bind].
  destruct (cplx2_ok a b r c Sa Sb) as (o & E & So & Q). rewrite E. cbn [bind].
  destruct tr; eexists; (split; [reflexivity|]).
  - destruct (transpose_ok o r c So Hr) as (St & T). split; [exact St|].
    intros i j x y Hx Hy. exists (x + Ci * y)%C. split; [|reflexivity]. apply T. now apply Q.
  - split; [exact So|]. intros i j x y Hx Hy. exists (x + Ci * y)%C. split; [|reflexivity]. now apply Q.
Qed.

Lemma stack_single file n names arrays acc : (acc = [] \/ exists r acc', acc = r :: acc' /\ length r = n) ->
  Forall2 (fun k a => holds file k a /\ length (concat a) = n) names arrays ->
  stack_rows file 1 (map (fun k => [k]) names) acc = Ok (acc ++ map (@concat C) arrays).
Proof.
  intros Hacc H. revert acc Hacc. induction H as [|k a names arrays [Hh Hl] _ IH]; intros acc Hacc.
  - cbn [map stack_rows]. now rewrite app_nil_r.
  - cbn [map stack_rows mode_row]. cbn [getn nth_error bind]. rewrite (mat_get_ok _ _ _ Hh). cbn [bind].
    destruct Hacc as [->|(r & acc' & -> & Hr)].
    + rewrite IH; [reflexivity|]. right. exists (concat a), []. auto.
    + rewrite Hr, Hl, Nat.eqb_refl. rewrite IH; [|right; exists r, (acc' ++ [concat a]); auto].
      now rewrite <- app_assoc.
Qed.
Lemma mat_modes file n names arrays tr pm : 2 <= length names ->
  Forall2 (fun k a => holds file k a /\ length (concat a) = n) names arrays ->
  ndarray_from_matlab file (map (fun k => [k]) names) tr false pm = Ok (map (@concat C) arrays).
Proof.
  intros H2 H. pose proof (stack_single file n names arrays [] (or_introl eq_refl) H) as E.
  destruct names as [|k1 [|k2 names]]; cbn in H2; try lia. unfold ndarray_from_matlab. cbn [map length] in *. rewrite E. reflexivity.
Qed.

Lemma stack_pairs file n names arrays acc : (acc = [] \/ exists r acc', acc = r :: acc' /\ length r = n) ->
  Forall2 (fun k a => holds file (fst k) (fst a) /\ holds file (snd k) (snd a) /\
     length (concat (fst a)) = n /\ length (concat (snd a)) = n) names arrays ->
  exists rows, stack_rows file 2 (map (fun k => [fst k; snd k]) names) acc = Ok (acc ++ rows) /\
    Forall2 (fun a row => length row = n /\ forall i x y, nth_error (concat (fst a)) i = Some x ->
       nth_error (concat (snd a)) i = Some y -> nth_error row i = Some (x + Ci * y)%C) arrays rows.
Proof.
  intros Hacc H. revert acc Hacc. induction H as [|k a names arrays (H1 & H2 & L1 & L2) _ IH]; intros acc Hacc.
  - exists []. cbn [map stack_rows]. rewrite app_nil_r. split; constructor.
  - destruct (cplx1_ok (concat (fst a)) (concat (snd a)) ltac:(congruence)) as (o & Eo & Lo & Qo).
    assert (Em : mode_row file 2 [fst k; snd k] = Ok o).
    { cbn [mode_row getn nth_error bind]. rewrite (mat_get_ok _ _ _ H1), (mat_get_ok _ _ _ H2). cbn [bind]. exact Eo. }
    cbn [map stack_rows]. rewrite Em. cbn [bind].
    destruct (IH (acc ++ [o])) as (rows & E & F).
    { destruct Hacc as [->|(r & acc' & -> & Hr)]; right.
      - exists o, []. split; [reflexivity|congruence].
      - exists r, (acc' ++ [o]). auto. }
    exists (o :: rows). split.
    + rewrite <- app_assoc in E. cbn [app] in E. destruct Hacc as [->|(r & acc' & -> & Hr)].
      * exact E.
      * rewrite Hr, Lo, L1, Nat.eqb_refl. exact E.
    + constructor; [|exact F]. split; [congruence|exact Qo].
Qed.
Lemma mat_mode_pairs file n names arrays tr pm : 2 <= length names ->
  Forall2 (fun k a => holds file (fst k) (fst a) /\ holds file (snd k) (snd a) /\
     length (concat (fst a)) = n /\ length (concat (snd a)) = n) names arrays ->
  exists rows, ndarray_from_matlab file (map (fun k => [fst k; snd k]) names) tr false pm = Ok rows /\
    Forall2 (fun a row => length row = n /\ forall i x y, nth_error (concat (fst a)) i = Some x ->
       nth_error (concat (snd a)) i = Some y -> exists z, nth_error row i = Some z /\ quadratures x y z) arrays rows.
Proof.
  intros H2 H. destruct (stack_pairs file n names arrays [] (or_introl eq_refl) H) as (rows & E & F).
  exists rows. split.
  - destruct names as [|k1 [|k2 names]]; cbn in H2; try lia. unfold ndarray_from_matlab. cbn [map length] in *. rewrite E. reflexivity.
  - clear - F. induction F as [|a row arrays rows (L & Q) _ IH]; constructor; [|exact IH].
    split; [exact L|]. intros i x y Hx Hy. exists (x + Ci * y)%C. split; [now apply Q|reflexivity].
Qed.

Lemma mat_ports file keys tr pm a r c : ndarray_from_matlab file keys tr false pm = Ok a -> has_shape a r c ->
  (forall p, In p pm -> fst p < r /\ snd p < r) ->
  exists o, ndarray_from_matlab file keys tr true pm = Ok o /\ has_shape o (length pm) c /\
    forall m p q j x y, nth_error pm m = Some (p, q) -> entry a p j = Some x -> entry a q j = Some y ->
      exists z, entry o m j = Some z /\ quadratures x y z.
Proof.
  intros E [La Ra] Hp. unfold ndarray_from_matlab in *.
  destruct (match keys with [] => _ | _ => _ end) as [s|e]; [|discriminate]. cbn [bind] in *.
  assert (s = a) by congruence. subst s. clear E. unfold ports.
  assert (G : forall p, In p pm -> exists ra rb, nth_error a (fst p) = Some ra /\ nth_error a (snd p) = Some rb).
  { intros p Hin. destruct (Hp p Hin) as [h1 h2].
    destruct (nth_error a (fst p)) as [ra|] eqn:Ea; [|apply nth_error_None in Ea; lia].
    destruct (nth_error a (snd p)) as [rb|] eqn:Eb; [|apply nth_error_None in Eb; lia]. eauto. }
  set (f := fun p : nat * nat => let! x := getn a (fst p) in let! y := getn a (snd p) in cplx1 x y).
  assert (Q : forall p, In p pm -> exists ra rb o, nth_error a (fst p) = Some ra /\ nth_error a (snd p) = Some rb /\ f p = Ok o /\
    length o = c /\ forall i x y, nth_error ra i = Some x -> nth_error rb i = Some y -> nth_error o i = Some (x + Ci * y)%C).
  { intros p Hin. destruct (G p Hin) as (ra & rb & Ea & Eb). exists ra, rb.
    destruct (cplx1_ok ra rb) as (o & Eo & Lo & Qo).
    { rewrite !Ra by (eapply nth_error_In; eassumption). reflexivity. }
    exists o. split; [exact Ea|]. split; [exact Eb|]. split.
    - unfold f, getn. rewrite Ea. cbn [bind]. rewrite Eb. exact Eo.
    - split; [|exact Qo]. rewrite Lo. apply Ra. eapply nth_error_In. exact Ea. }
  destruct (mapM f pm) as [o|e] eqn:EM.
  - exists o. split; [reflexivity|]. pose proof (mapM_length _ _ _ EM) as Lo. split; [split; [exact Lo|]|].
    + intros row Hin. apply In_nth_error in Hin. destruct Hin as [i Hi].
      assert (Hi' : i < length pm) by (rewrite <- Lo; apply nth_error_Some; congruence).
      destruct (nth_error pm i) as [p|] eqn:Ep; [|apply nth_error_None in Ep; lia].
      destruct (mapM_nth _ _ _ i _ EM Ep) as (ro & F1 & F2).
      destruct (Q p (nth_error_In _ _ Ep)) as (ra & rb & o' & _ & _ & E3 & E4 & _). congruence.
    + intros m p q j x y Hm Hx Hy. destruct (mapM_nth _ _ _ m _ EM Hm) as (ro & F1 & F2).
      destruct (Q (p, q) (nth_error_In _ _ Hm)) as (ra & rb & o' & E1 & E2 & E3 & _ & E5). cbn [fst snd] in E1, E2.
      unfold entry in *. rewrite E1 in Hx. rewrite E2 in Hy. exists (x + Ci * y)%C. split; [|reflexivity].
      rewrite F1. assert (o' = ro) by congruence. subst o'. now apply E5.
  - exfalso. assert (W : exists o, mapM f pm = Ok o).
    { clear EM G Hp. induction pm as [|p pm' IH]; [exists []; reflexivity|].
      destruct (Q p (or_introl eq_refl)) as (_ & _ & o & _ & _ & E3 & _).
      destruct IH as (os & Eos); [intros; apply Q; now right|]. exists (o :: os). cbn [mapM]. rewrite E3. cbn [bind]. rewrite Eos. reflexivity. }
    destruct W. congruence.
Qed.

Lemma mat_missing file k tr dc pm : ~ In k (map fst file) -> ndarray_from_matlab file [[k]] tr dc pm = Err KeyError.
Proof. intros H. unfold ndarray_from_matlab, one_entry. rewrite mat_get_missing by assumption. reflexivity. Qed.
Lemma mat_unequal file k1 k2 a1 a2 tr dc pm : holds file k1 a1 -> holds file k2 a2 -> length (concat a1) <> length (concat a2) ->
  ndarray_from_matlab file [[k1]; [k2]] tr dc pm = Err ValueError.
Proof.
  intros H1 H2 H. unfold ndarray_from_matlab. cbn [length stack_rows mode_row getn nth_error bind].
  rewrite (mat_get_ok _ _ _ H1). cbn [bind]. rewrite (mat_get_ok _ _ _ H2). cbn [bind].
  destruct (Nat.eqb_spec (length (concat a1)) (length (concat a2))); [contradiction|]. reflexivity.
Qed.

(** ** mixed formats and the transpose option *)
Lemma mat_mixed : let one := (1, 0)%R : C in let file := [("a", [[one]]); ("b", [[one]]); ("c", [[one]])]%string in
  ndarray_from_matlab file [["a"]; ["b"; "c"]]%string false false [] = Ok [[one]; [one]] /\ ~ quadratures one one one /\
  ndarray_from_matlab file [["b"; "c"]; ["a"]]%string false false [] = Err IndexError.
Proof.
  intros one file. split; [reflexivity|]. split; [|reflexivity].
  unfold quadratures, one, Cadd, Cmul, Ci. cbn [fst snd]. intros E. injection E as E1 E2. lra.
Qed.
Lemma mat_transpose_lost : let m := [[(1, 0); (2, 0)]; [(3, 0); (4, 0)]]%R : list (list C) in let file := [("a", m); ("b", m)]%string in
  ndarray_from_matlab file [["a"]; ["b"]]%string true false [] = Ok [concat m; concat m] /\ concat m <> concat (transpose m).
Proof.
  intros m file. split; [reflexivity|]. unfold m, transpose. cbn [row_len length seq map concat app nth].
  intros E. assert (K : (2 = 3)%R) by congruence. lra.
Qed.

(** ** fake polarisation multiplexing *)
Lemma roll_permutation {A} d (l : list A) : Permutation (roll d l) l.
Proof. unfold roll. rewrite Permutation_app_comm, firstn_skipn. reflexivity. Qed.
Lemma Cmean_roll d x : Cmean (roll d x) = Cmean x.
Proof. unfold Cmean. now rewrite Csum_roll, roll_length. Qed.
Lemma mean_power_roll d (x : list C) : Helpers.mean_power (roll d x) = Helpers.mean_power x.
Proof.
  unfold Helpers.mean_power, Rmean. rewrite !map_length, roll_length. f_equal.
  apply Rsum_perm, Permutation_map, roll_permutation.
Qed.
Lemma nc_row_roll d x : nc_row (roll d x) = roll d (nc_row x).
Proof.
  assert (E : center_row (roll d x) = roll d (center_row x)).
  { unfold center_row. rewrite Cmean_roll. symmetry. apply (roll_map d (fun z : C => (z - Cmean x)%C)). }
  unfold nc_row. rewrite E, mean_power_roll. unfold cdiv_row. now rewrite roll_map.
Qed.
Lemma roll_flat_row d (x : list C) : x <> [] -> roll_flat d [x] = [roll d x].
Proof.
  intros H. unfold roll_flat. cbn [row_len concat]. rewrite app_nil_r.
  destruct (length x) as [|n] eqn:E; [destruct x; [contradiction|discriminate]|].
  rewrite <- E. replace (roll d x) with (concat [roll d x]) by (cbn [concat]; apply app_nil_r).
  rewrite chunks_concat; [cbn [concat]; now rewrite app_nil_r|lia|].
  intros r [<-|[]]. apply roll_length.
Qed.

Lemma load_fake file k nbits x d : 1 <= nbits -> holds file k [x] -> ~ constant x ->
  exists s y a, load_symbols_from_matlab_file file nbits [[k]] true d true false false [] = Ok (Some s) /\
    shifted_scaled (sample_mean x) a x y /\ sample_mean y = C0 /\ sample_power y = 1%R /\
    exists z, Forall2 (nearest (coded_symbols (sig_map s))) y z /\ exists z', delayed d z z' /\ sig_samples s = [z'; z].
Proof.
  intros Hk Hh Hc. assert (Hx : x <> []) by (intros ->; apply Hc; intros ? ? []).
  destruct (nc_row_ok x Hc) as (y & a & En & Hs & Hm & Hp & _).
  assert (E : load_symbols_from_matlab_file file nbits [[k]] true d true false false [] =
     (let! s := from_symbol_array nbits [roll d y; y] in Ok (Some s))).
  { unfold load_symbols_from_matlab_file, ndarray_from_matlab, one_entry. rewrite (mat_get_ok _ _ _ Hh). cbn [bind].
    rewrite roll_flat_row by assumption. cbn [app]. unfold normalise_and_center. cbn [map].
    rewrite nc_row_roll, En, roll_map.
    change [map Some (roll d y); map Some y] with (map (map (@Some C)) [roll d y; y]). rewrite no_nan_some. reflexivity. }
  destruct (from_symbols_last nbits [roll d y; y] Hk ltac:(discriminate)) as (s0 & bits0 & F0 & _ & Fn & _).
  destruct (from_symbols_gen nbits [roll d y; y] Hk ltac:(discriminate)) as (mp & _ & _ & F).
  match type of F with _ = Ok ?s1 => assert (Es : s0 = s1) by congruence end.
  subst s0. rewrite F in E. cbn [bind] in E. cbn [sig_map sig_samples] in *. cbn [map] in *.
  eexists. exists y, a. split; [exact E|]. split; [exact Hs|]. split; [exact Hm|]. split; [exact Hp|].
  exists (map (dsym (coded_symbols mp)) y). split.
  - cbn [sig_map]. inversion Fn as [|? ? ? ? _ Fn2]; subst. inversion Fn2; subst. assumption.
  - exists (map (dsym (coded_symbols mp)) (roll d y)). split; [|reflexivity].
    rewrite <- roll_map. split; [apply roll_length|]. intros i Hi. now apply roll_nth.
Qed.
Lemma load_plain file k nbits E : 1 <= nbits -> holds file k E -> E <> [] -> Forall (fun x => ~ constant x) E ->
  exists s F, load_symbols_from_matlab_file file nbits [[k]] false 0 true false false [] = Ok (Some s) /\
    Forall2 (fun x y => (exists a, shifted_scaled (sample_mean x) a x y) /\ sample_mean y = C0 /\ sample_power y = 1%R) E F /\
    Forall2 (Forall2 (nearest (coded_symbols (sig_map s)))) F (sig_samples s).
Proof.
  intros Hk Hh Hne Hc. destruct (nc_all E Hc) as (F & En & HF & _).
  assert (HFne : F <> []) by (intros ->; inversion HF; subst; contradiction).
  destruct (from_symbols_last nbits F Hk HFne) as (s & bits & Fs & _ & Fn & _).
  exists s, F. split; [|split; assumption].
  unfold load_symbols_from_matlab_file, ndarray_from_matlab, one_entry. rewrite (mat_get_ok _ _ _ Hh). cbn [bind].
  rewrite En, no_nan_some, Fs. reflexivity.
Qed.
(** the delayed copy is the first mode *)
Lemma load_fake_swapped : let x := [(3, 0); (-3, 0); (3, 0)]%R : list C in
  exists s, load_symbols_from_matlab_file [("s", [x])]%string 1 [["s"]]%string true 1 false false false [] = Ok (Some s) /\
    sig_samples s = [[(3, 0); (3, 0); (-3, 0)]; x]%R /\ ~ (exists y, delayed 1 x y /\ sig_samples s = [x; y]).
Proof.
  intros x.
  assert (A : cal_symbols_qam 1 = [(-1, 0)%Z; (1, 0)%Z]) by reflexivity.
  assert (P1 : (3, 0)%R = Cscal 3 (ZtoC (1, 0)%Z)) by (unfold Cscal, ZtoC; cbn [fst snd]; f_equal; lra).
  assert (P2 : (-3, 0)%R = Cscal 3 (ZtoC (-1, 0)%Z)) by (unfold Cscal, ZtoC; cbn [fst snd]; f_equal; lra).
  destruct (from_symbols_full 1 3 [[(3, 0); (3, 0); (-3, 0)]; x]%R ltac:(lia) ltac:(lra)) as (s & b & E & H & _).
  { rewrite A. unfold x. intros z. cbn [concat app In]. split.
    - intros [<-|[<-|[<-|[<-|[<-|[<-|[]]]]]]]; [exists (1, 0)%Z|exists (1, 0)%Z|exists (-1, 0)%Z|exists (1, 0)%Z|exists (-1, 0)%Z|exists (1, 0)%Z]; auto.
    - intros (w & [<-|[<-|[]]] & ->); rewrite ?P1, ?P2; auto 10. }
  exists s. split.
  - unfold load_symbols_from_matlab_file, ndarray_from_matlab, one_entry. cbn [mat_get String.eqb Ascii.eqb Bool.eqb bind].
    change (roll_flat 1 [x] ++ [x]) with [[(3, 0); (3, 0); (-3, 0)]; x]%R. rewrite E. reflexivity.
  - split; [exact H|]. intros (y & _ & Hy). rewrite H in Hy. unfold x in Hy.
    assert (K : (3 = -3)%R) by congruence. lra.
Qed.
(** a column vector gives one mode per symbol *)
Lemma load_column file k nbits (x : list C) d : 1 <= nbits -> x <> [] -> holds file k (map (fun z => [z]) x) ->
  exists s, load_symbols_from_matlab_file file nbits [[k]] true d false false false [] = Ok (Some s) /\
    length (sig_samples s) = 2 * length x /\ Forall (fun row => length row = 1) (sig_samples s).
Proof.
  intros Hk Hx Hh.
  assert (Er : roll_flat d (map (fun z => [z]) x) = map (fun z => [z]) (roll d x)).
  { unfold roll_flat. destruct x as [|x0 x]; [contradiction|]. cbn [map row_len length].
    change ([x0] :: map (fun z => [z]) x) with (map (fun z : C => [z]) (x0 :: x)).
    assert (Q : forall l : list C, concat (map (fun z => [z]) l) = l) by (induction l as [|u l IH]; [reflexivity|]; cbn; now rewrite IH).
    rewrite Q. rewrite <- (Q (roll d (x0 :: x))) at 1. apply chunks_concat; [lia|].
    intros r Hr. apply in_map_iff in Hr. destruct Hr as (z & <- & _). reflexivity. }
  set (S := map (fun z => [z]) (roll d x) ++ map (fun z => [z]) x).
  assert (Sne : S <> []) by (unfold S; intros Z; apply app_eq_nil in Z; destruct Z as [_ Z]; destruct x; [contradiction|discriminate]).
  destruct (from_symbols_last nbits S Hk Sne) as (s & bits & Fs & _ & Fn & _).
  exists s. split.
  - unfold load_symbols_from_matlab_file, ndarray_from_matlab, one_entry. rewrite (mat_get_ok _ _ _ Hh). cbn [bind].
    rewrite Er. fold S. rewrite Fs. reflexivity.
  - pose proof (F2_length _ _ _ Fn) as L. split.
    + rewrite <- L. unfold S. rewrite app_length, !map_length, roll_length. lia.
    + assert (W : Forall (fun row : list C => length row = 1) S).
      { unfold S. apply Forall_app. split; apply Forall_forall; intros r Hr; apply in_map_iff in Hr; destruct Hr as (z & <- & _); reflexivity. }
      clear - Fn W. induction Fn as [|r t S T H _ IH]; [constructor|]. inversion W; subst. constructor; [|now apply IH].
      rewrite <- (F2_length _ _ _ H). assumption.
Qed.
