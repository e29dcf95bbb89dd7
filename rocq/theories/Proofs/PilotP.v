From Coq Require Import List ZArith Bool Lia Arith ZifyBool ZifyNat.
From Verif Require Import Common.Py Common.ListX Model.Sync Model.Pilots Spec.Seq Spec.Frames.
Import ListNotations.

(** ** C28 *)
Lemma mask_const_false n : count_true (repeat false n) = 0.
Proof. induction n; cbn; auto. Qed.
Lemma mask_const_true n : count_true (repeat true n) = n.
Proof. induction n; cbn; auto. Qed.

Definition pil_mask (fl seq rat : nat) : list bool :=
  if rat =? 0 then repeat true seq ++ repeat false (fl - seq)
  else repeat true seq ++ tile ((fl - seq) / rat) (true :: repeat false (rat - 1)).

Lemma cal_pilot_idx_mask fl sq rat : sq <= fl -> (rat <> 0 -> (fl - sq) mod rat = 0) ->
  cal_pilot_idx fl (Z.of_nat sq) (Z.of_nat rat) = Ok (map negb (pil_mask fl sq rat), pil_mask fl sq rat).
Proof.
  intros Hs Hr. unfold cal_pilot_idx, pil_mask.
  destruct (Nat.eqb_spec rat 0) as [->|Hne].
  - cbn [Z.eqb Z.of_nat bind].
    assert (E : map (fun k => (k <? Z.of_nat sq)%Z) (map Z.of_nat (seq 0 fl)) = repeat true sq ++ repeat false (fl - sq)).
    { rewrite map_map. apply nth_error_ext_lt.
      - rewrite map_length, seq_length, app_length, !repeat_length. lia.
      - intros k Hk. rewrite map_length, seq_length in Hk. rewrite nth_error_map_seq by assumption. cbn [Nat.add].
        destruct (Nat.lt_ge_cases k sq).
        + rewrite nth_error_app1 by (rewrite repeat_length; lia). rewrite nth_error_repeat_lt by lia. f_equal. lia.
        + rewrite nth_error_app2 by (rewrite repeat_length; lia). rewrite repeat_length, nth_error_repeat_lt by lia. f_equal. lia. }
    now rewrite E.
  - specialize (Hr Hne).
    destruct (Z.eqb_spec (Z.of_nat rat) 0); [lia|].
    replace ((Z.of_nat fl - Z.of_nat sq) mod Z.of_nat rat)%Z with 0%Z.
    2:{ rewrite <- Nat2Z.inj_sub by assumption. rewrite <- Nat2Z.inj_mod, Hr. reflexivity. }
    cbn [Z.eqb negb].
    pose proof (Nat.div_mod (fl - sq) rat Hne) as Hdm. rewrite Hr in Hdm. set (q := (fl - sq) / rat) in *.
    cbn [bind].
    assert (E : map (fun k => negb (negb ((k - Z.of_nat sq) mod Z.of_nat rat =? 0)%Z && (0 <? k - Z.of_nat sq)%Z)) (map Z.of_nat (seq 0 fl))
       = repeat true sq ++ tile q (true :: repeat false (rat - 1))).
    { rewrite map_map. apply nth_error_ext_lt.
      - rewrite map_length, seq_length, app_length, tile_length. cbn [length]. rewrite !repeat_length. nia.
      - intros k Hk. rewrite map_length, seq_length in Hk. rewrite nth_error_map_seq by assumption. cbn [Nat.add].
        destruct (Nat.lt_ge_cases k sq) as [H|H].
        + rewrite nth_error_app1 by (rewrite repeat_length; lia). rewrite nth_error_repeat_lt by lia. f_equal.
          destruct (Z.ltb_spec 0 (Z.of_nat k - Z.of_nat sq)); [lia|]. now rewrite andb_false_r.
        + rewrite nth_error_app2 by (rewrite repeat_length; lia). rewrite repeat_length.
          assert (Hlt : k - sq < q * length (true :: repeat false (rat - 1))) by (cbn [length]; rewrite repeat_length; nia).
          rewrite tile_nth by assumption. cbn [length]. rewrite repeat_length. replace (S (rat - 1)) with rat by lia.
          rewrite <- Nat2Z.inj_sub by assumption. rewrite <- Nat2Z.inj_mod.
          pose proof (Nat.mod_upper_bound (k - sq) rat Hne) as Hm.
          destruct ((k - sq) mod rat) as [|r] eqn:Er.
          * reflexivity.
          * cbn [nth_error]. rewrite nth_error_repeat_lt by lia. f_equal.
            assert (k - sq <> 0) by (intros E; rewrite E, Nat.mod_0_l in Er by assumption; discriminate). lia. }
    now rewrite E.
Qed.

Lemma pil_mask_length fl sq rat : sq <= fl -> (rat <> 0 -> (fl - sq) mod rat = 0) -> length (pil_mask fl sq rat) = fl.
Proof.
  intros Hs Hr. unfold pil_mask. destruct (Nat.eqb_spec rat 0) as [->|Hne].
  - rewrite app_length, !repeat_length. lia.
  - pose proof (Nat.div_mod (fl - sq) rat Hne) as Hdm. rewrite (Hr Hne) in Hdm.
    rewrite app_length, tile_length. cbn [length]. rewrite !repeat_length. nia.
Qed.
Lemma pil_mask_count fl sq rat : count_true (pil_mask fl sq rat) = n_pilots fl sq rat.
Proof.
  unfold pil_mask, n_pilots. destruct (Nat.eqb_spec rat 0) as [->|Hne]; rewrite count_true_app, mask_const_true.
  - rewrite mask_const_false. lia.
  - rewrite count_true_tile. cbn [count_true]. rewrite mask_const_false. lia.
Qed.
Lemma pil_mask_nth fl sq rat k : sq <= fl -> (rat <> 0 -> (fl - sq) mod rat = 0) -> k < fl ->
  exists b, nth_error (pil_mask fl sq rat) k = Some b /\ (b = true <-> pilot_pos sq rat k).
Proof.
  intros Hs Hr Hk. unfold pil_mask, pilot_pos. destruct (Nat.eqb_spec rat 0) as [->|Hne].
  - destruct (Nat.lt_ge_cases k sq) as [H|H].
    + exists true. rewrite nth_error_app1 by (rewrite repeat_length; lia). rewrite nth_error_repeat_lt by lia. intuition.
    + exists false. rewrite nth_error_app2 by (rewrite repeat_length; lia). rewrite repeat_length, nth_error_repeat_lt by lia.
      split; [reflexivity|]. split; [discriminate|]. intros [?|[? _]]; lia.
  - pose proof (Nat.div_mod (fl - sq) rat Hne) as Hdm. rewrite (Hr Hne) in Hdm. set (q := (fl - sq) / rat) in *.
    destruct (Nat.lt_ge_cases k sq) as [H|H].
    + exists true. rewrite nth_error_app1 by (rewrite repeat_length; lia). rewrite nth_error_repeat_lt by lia. intuition.
    + rewrite nth_error_app2 by (rewrite repeat_length; lia). rewrite repeat_length.
      assert (Hlt : k - sq < q * length (true :: repeat false (rat - 1))) by (cbn [length]; rewrite repeat_length; nia).
      rewrite tile_nth by assumption. cbn [length]. rewrite repeat_length. replace (S (rat - 1)) with rat by lia.
      pose proof (Nat.mod_upper_bound (k - sq) rat Hne) as Hm.
      destruct ((k - sq) mod rat) as [|r] eqn:Er.
      * exists true. split; [reflexivity|]. split; [|reflexivity]. intros _. right. split; [assumption|]. split; [assumption|].
        apply Nat.mod_divide; assumption.
      * exists false. cbn [nth_error]. rewrite nth_error_repeat_lt by lia. split; [reflexivity|]. split; [discriminate|].
        intros [?|[_ [_ Hd]]]; [lia|]. apply Nat.mod_divide in Hd; [lia|assumption].
Qed.

Lemma c28 fl sq rat : sq <= fl ->
  ((rat = 0 \/ Nat.divide rat (fl - sq)) ->
   exists dat pil, cal_pilot_idx fl (Z.of_nat sq) (Z.of_nat rat) = Ok (dat, pil) /\ length dat = fl /\ length pil = fl /\
     (forall k, k < fl -> exists b, nth_error pil k = Some b /\ nth_error dat k = Some (negb b) /\ (b = true <-> pilot_pos sq rat k)) /\
     count_true pil = n_pilots fl sq rat /\ count_true dat = fl - n_pilots fl sq rat) /\
  (rat <> 0 -> ~ Nat.divide rat (fl - sq) -> cal_pilot_idx fl (Z.of_nat sq) (Z.of_nat rat) = Err ValueError).
Proof.
  intros Hs. split.
  - intros Hr. assert (Hr' : rat <> 0 -> (fl - sq) mod rat = 0).
    { intros Hne. destruct Hr as [|Hr]; [lia|]. now apply Nat.mod_divide in Hr. }
    exists (map negb (pil_mask fl sq rat)), (pil_mask fl sq rat).
    rewrite cal_pilot_idx_mask, map_length, pil_mask_length by assumption. repeat split; try reflexivity.
    + intros k Hk. destruct (pil_mask_nth fl sq rat k Hs Hr' Hk) as (b & E & Hb). exists b.
      rewrite nth_error_map, E. repeat split; tauto.
    + apply pil_mask_count.
    + pose proof (count_true_neg (pil_mask fl sq rat)) as H. rewrite pil_mask_length, pil_mask_count in H by assumption. lia.
  - intros Hne Hnd. unfold cal_pilot_idx. destruct (Z.eqb_spec (Z.of_nat rat) 0); [lia|].
    rewrite <- Nat2Z.inj_sub by assumption. rewrite <- Nat2Z.inj_mod.
    destruct (Z.eqb_spec (Z.of_nat ((fl - sq) mod rat)) 0) as [E|E]; [|reflexivity].
    exfalso. apply Hnd. apply Nat.mod_divide; lia.
Qed.

(** ** assignment lemmas *)
Lemma bcast_same {A} (v : list A) n : length v = n -> bcast v n = Ok v.
Proof. intros H. unfold bcast. now rewrite H, Nat.eqb_refl. Qed.
Lemma bcast_err {A} (v : list A) n : length v <> n -> length v <> 1 -> bcast v n = Err ValueError.
Proof.
  intros H1 H2. unfold bcast. destruct (Nat.eqb_spec (length v) n); [contradiction|].
  destruct v as [|a [|b v]]; try reflexivity. cbn in H2. lia.
Qed.
Lemma combine_nth_error {A B} (l : list A) (l' : list B) i p :
  nth_error (combine l l') i = Some p -> nth_error l i = Some (fst p) /\ nth_error l' i = Some (snd p).
Proof.
  revert l' i. induction l as [|a l IH]; intros [|b l'] [|i] H; cbn in *; try discriminate.
  - injection H as <-. auto.
  - now apply IH.
Qed.

(** rows written through a mask *)
Definition put_rows {A} (m : list bool) (vals rows : list (list A)) : list (list A) :=
  map (fun p => mask_put m (fst p) (snd p)) (combine vals rows).
Lemma rows_assign_ok {A} (m : list bool) (vals rows : list (list A)) N :
  length vals = length rows -> rect rows N -> length m = N -> rect vals (count_true m) ->
  rows_assign (IMask m) vals rows = Ok (put_rows m vals rows).
Proof.
  intros H1 H2 H3 H4. unfold rows_assign. rewrite bcast_same by assumption. cbn [bind]. unfold put_rows.
  apply mapM_ok. intros [v r] Hin. cbn [fst snd].
  pose proof (in_combine_l _ _ _ _ Hin) as Hv. pose proof (in_combine_r _ _ _ _ Hin) as Hr.
  unfold rect in *. rewrite Forall_forall in H2, H4. specialize (H2 r Hr). specialize (H4 v Hv).
  cbn [idx_assign]. unfold mask_assign. rewrite H3, H2, Nat.eqb_refl. cbn [negb]. rewrite bcast_same by assumption. reflexivity.
Qed.
Lemma put_rows_length {A} m (vals rows : list (list A)) : length vals = length rows -> length (put_rows m vals rows) = length rows.
Proof. intros H. unfold put_rows. rewrite map_length, combine_length. lia. Qed.
Lemma put_rows_rect {A} m (vals rows : list (list A)) N : rect rows N -> rect (put_rows m vals rows) N.
Proof.
  intros H. apply Forall_forall. intros x Hx. apply in_map_iff in Hx as ([v r] & <- & Hin). cbn [fst snd].
  rewrite mask_put_length. apply in_combine_r in Hin. unfold rect in H. rewrite Forall_forall in H. now apply H.
Qed.
Lemma put_rows_sel {A} m (vals rows : list (list A)) N :
  length vals = length rows -> rect rows N -> length m = N -> rect vals (count_true m) ->
  map (mask_sel m) (put_rows m vals rows) = vals.
Proof.
  intros H1 H2 H3 H4. unfold put_rows. revert vals H1 H4. induction rows as [|r rows IH]; intros [|v vals] H1 H4; try discriminate; [reflexivity|].
  inversion H2; subst. inversion H4; subst. cbn. rewrite mask_sel_put by congruence. f_equal. apply IH; auto.
Qed.
Lemma put_rows_sel_neg {A} m (vals rows : list (list A)) N :
  length vals = length rows -> rect rows N -> length m = N ->
  map (mask_sel (map negb m)) (put_rows m vals rows) = map (mask_sel (map negb m)) rows.
Proof.
  intros H1 H2 H3. unfold put_rows. revert vals H1. induction rows as [|r rows IH]; intros [|v vals] H1; try discriminate; [reflexivity|].
  inversion H2; subst. cbn. rewrite mask_sel_put_neg by congruence. f_equal. apply IH; auto.
Qed.
Lemma map_negb_invol m : map negb (map negb m) = m.
Proof. rewrite map_map. rewrite (map_ext _ (fun b => b)) by (intros []; reflexivity). apply map_id. Qed.
Lemma tile_map {A B} (f : A -> B) n l : tile n (map f l) = map f (tile n l).
Proof. unfold tile. induction n; cbn; [reflexivity|]. now rewrite map_app, IHn. Qed.
Lemma rect_tile {A} n (rows : list (list A)) k : rect rows k -> rect (map (tile n) rows) (n * k).
Proof. intros H. apply Forall_forall. intros x Hx. apply in_map_iff in Hx as (r & <- & Hr). rewrite tile_length. unfold rect in H. rewrite Forall_forall in H. now rewrite H. Qed.
Lemma rect_repeat {A} (r : list A) n k : length r = k -> rect (repeat r n) k.
Proof. intros H. apply Forall_forall. intros x Hx. apply repeat_spec in Hx. now subst. Qed.
Lemma mapM_mask_get {A} m (rows : list (list A)) N : rect rows N -> length m = N -> mapM (mask_get m) rows = Ok (map (mask_sel m) rows).
Proof.
  intros H E. apply mapM_ok. intros r Hr. unfold mask_get. unfold rect in H. rewrite Forall_forall in H. rewrite (H r Hr), E, Nat.eqb_refl. reflexivity.
Qed.
Lemma row_len_rect {A} (rows : list (list A)) N : rows <> [] -> rect rows N -> row_len rows = N.
Proof. intros Hn H. destruct rows; [congruence|]. inversion H; subst. reflexivity. Qed.

(** ** filling the frame mask *)
Lemma slice_assign_at {A} (a b : nat) (v pre mid post : list A) :
  length pre = a -> length mid = b -> length v = b ->
  slice_assign (Z.of_nat a) (Z.of_nat (a + b)) v (pre ++ mid ++ post) = Ok (pre ++ v ++ post).
Proof.
  intros H1 H2 H3. unfold slice_assign. rewrite !app_length.
  rewrite !clipz_pos by lia. rewrite !Nat2Z.id. rewrite bcast_same by lia. cbn [bind]. f_equal.
  rewrite firstn_app, H1, Nat.sub_diag. cbn [firstn]. rewrite firstn_all2, app_nil_r by lia.
  f_equal. f_equal. replace (Nat.max a (a + b)) with (a + b) by lia.
  rewrite skipn_app, skipn_all2 by lia. cbn [app]. rewrite H1, skipn_app, skipn_all2 by lia. cbn [app].
  replace (a + b - a - length mid) with 0 by lia. reflexivity.
Qed.

Lemma repeat_add {A} (x : A) n m : repeat x (n + m) = repeat x n ++ repeat x m.
Proof. induction n; cbn; [reflexivity|]. now rewrite IHn. Qed.
Lemma tile_app {A} n m (l : list A) : tile (n + m) l = tile n l ++ tile m l.
Proof. unfold tile. now rewrite repeat_add, concat_app. Qed.

Lemma fill_all dat fl : length dat = fl -> forall n a,
  fill_frames (map Z.of_nat (seq a n)) fl dat (tile a dat ++ repeat false (n * fl)) = Ok (tile (a + n) dat).
Proof.
  intros Hl. induction n as [|n IH]; intros a.
  - cbn. now rewrite app_nil_r, Nat.add_0_r.
  - cbn [seq map fill_frames]. cbn [Nat.mul]. rewrite repeat_add.
    replace (Z.of_nat a * Z.of_nat fl)%Z with (Z.of_nat (a * fl)) by lia.
    replace ((Z.of_nat a + 1) * Z.of_nat fl)%Z with (Z.of_nat (a * fl + fl)) by lia.
    rewrite slice_assign_at; [|rewrite tile_length; lia|apply repeat_length|assumption]. cbn [bind].
    rewrite app_assoc. replace (tile a dat ++ dat) with (tile (S a) dat).
    + rewrite IH. f_equal. f_equal. lia.
    + replace (S a) with (a + 1) by lia. now rewrite tile_app, tile_1.
Qed.

Lemma slice_assign_length {A} lo hi (v l l' : list A) : slice_assign lo hi v l = Ok l' -> length l' = length l.
Proof.
  unfold slice_assign. intros E.
  pose proof (clipz_bounds (Z.of_nat (length l)) lo ltac:(lia)) as B1. pose proof (clipz_bounds (Z.of_nat (length l)) hi ltac:(lia)) as B2.
  set (a := Z.to_nat (clipz (Z.of_nat (length l)) lo)) in *. set (b := Z.to_nat (clipz (Z.of_nat (length l)) hi)) in *.
  destruct (bcast v (b - a)) as [v'|] eqn:Eb; cbn [bind] in E; [|discriminate]. injection E as <-.
  assert (Hv : length v' = b - a).
  { unfold bcast in Eb. destruct (Nat.eqb_spec (length v) (b - a)); [congruence|].
    destruct v as [|x [|y v]]; try discriminate. injection Eb as <-. apply repeat_length. }
  rewrite !app_length, firstn_length, skipn_length, Hv. lia.
Qed.

(** a frame number equal to the length of the mask in frames cannot be written *)
Lemma fill_last_err dat fl m : length dat = fl -> 2 <= fl -> forall frames idx, length idx = fl * Z.to_nat m -> (0 <= m)%Z -> In m frames ->
  exists e, fill_frames frames fl dat idx = Err e /\ e = ValueError.
Proof.
  intros Hl Hf. induction frames as [|i frames IH]; intros idx Hi Hm Hin; [destruct Hin|].
  cbn [fill_frames].
  destruct (slice_assign (i * Z.of_nat fl) ((i + 1) * Z.of_nat fl) dat idx) as [idx'|e] eqn:E; cbn [bind].
  - destruct Hin as [->|Hin].
    + exfalso. unfold slice_assign in E. rewrite Hi in E. unfold clipz in E.
      destruct (Z.ltb_spec (m * Z.of_nat fl) 0); [nia|]. destruct (Z.ltb_spec ((m + 1) * Z.of_nat fl) 0); [nia|].
      rewrite bcast_err in E; [discriminate| |lia].
      assert (Z.of_nat (fl * Z.to_nat m) = m * Z.of_nat fl)%Z by lia. nia.
    + apply IH; [|assumption|assumption]. rewrite (slice_assign_length _ _ _ _ _ E). assumption.
  - exists e. split; [reflexivity|]. unfold slice_assign in E.
    destruct (bcast _ _) as [|e'] eqn:Eb in E; cbn [bind] in E; [discriminate|]. injection E as <-.
    unfold bcast in Eb. destruct (_ =? _); [discriminate|]. destruct dat as [|x [|y d]]; congruence.
Qed.

(** ** reading pilots by integer indices *)
Lemma nonzero_from_shift k m : nonzero_from k m = map (fun i => i + k) (nonzero m).
Proof.
  unfold nonzero. revert k. induction m as [|b m IH]; intros k; cbn; [reflexivity|].
  destruct b; cbn; rewrite (IH (S k)), (IH 1), map_map; [f_equal|]; apply map_ext; intros; lia.
Qed.

Lemma mapM_app {A B} (f : A -> result B) l1 l2 a b : mapM f l1 = Ok a -> mapM f l2 = Ok b -> mapM f (l1 ++ l2) = Ok (a ++ b).
Proof.
  revert a. induction l1 as [|x l1 IH]; intros a H1 H2; cbn in *.
  - injection H1 as <-. exact H2.
  - destruct (f x) as [y|]; cbn [bind] in *; [|discriminate]. destruct (mapM f l1) as [ys|]; cbn [bind] in *; [|discriminate].
    injection H1 as <-. rewrite (IH ys eq_refl H2). reflexivity.
Qed.
Lemma mapM_flat_map {A B D} (f : A -> result B) (g : D -> list A) (h : D -> list B) l :
  (forall d, In d l -> mapM f (g d) = Ok (h d)) -> mapM f (flat_map g l) = Ok (flat_map h l).
Proof.
  intros H. induction l as [|d l IH]; cbn; [reflexivity|].
  apply mapM_app; [apply H; now left|apply IH; intros; apply H; now right].
Qed.
Lemma mapM_map {A B D} (f : B -> result D) (g : A -> B) l : mapM f (map g l) = mapM (fun x => f (g x)) l.
Proof. induction l; cbn; [reflexivity|]. now rewrite IHl. Qed.
Lemma mapM_ext_in {A B} (f g : A -> result B) l : (forall x, In x l -> f x = g x) -> mapM f l = mapM g l.
Proof. intros H. induction l as [|a l IH]; cbn; [reflexivity|]. rewrite H by now left. now rewrite IH by (intros; apply H; now right). Qed.

Lemma frame_of_length {A} fl f (row : list A) : (f + 1) * fl <= length row -> length (frame_of fl f row) = fl.
Proof. intros H. unfold frame_of. rewrite firstn_length, skipn_length. nia. Qed.

Lemma read_frame {A} m fl f (row : list A) : length m = fl -> (f + 1) * fl <= length row ->
  mapM (getz row) (map (fun k => (Z.of_nat k + Z.of_nat f * Z.of_nat fl)%Z) (nonzero m)) = Ok (mask_sel m (frame_of fl f row)).
Proof.
  intros Hm Hl. rewrite mapM_map. rewrite <- fancy_get_nonzero by (rewrite frame_of_length; assumption).
  apply mapM_ext_in. intros k Hk. apply nonzero_spec, nth_error_Some_lt in Hk.
  unfold getz, getn. destruct (Z.leb_spec 0 (Z.of_nat k + Z.of_nat f * Z.of_nat fl)); [|lia].
  unfold frame_of. rewrite nth_error_firstn_lt by lia. rewrite nth_error_skipn'.
  replace (Z.to_nat (Z.of_nat k + Z.of_nat f * Z.of_nat fl)) with (f * fl + k) by lia. reflexivity.
Qed.

Definition frames_ok (nf : nat) (fs : list Z) : Prop := Forall (fun f => (0 <= f < Z.of_nat nf)%Z) fs.
Lemma zmax_spec l : l <> [] -> exists m, zmax l = Ok m /\ In m l /\ forall x, In x l -> (x <= m)%Z.
Proof.
  destruct l as [|a l]; [congruence|]. intros _. cbn [zmax]. eexists. split; [reflexivity|].
  assert (G : forall l a, (In (fold_left Z.max l a) (a :: l)) /\ forall x, In x (a :: l) -> (x <= fold_left Z.max l a)%Z).
  { clear. induction l as [|b l IH]; intros a; cbn [fold_left].
    - split; [now left|]. intros x [<-|[]]. lia.
    - destruct (IH (Z.max a b)) as [H1 H2]. split.
      + destruct H1 as [H1|H1]; [|right; now right]. rewrite <- H1. destruct (Z.max_spec a b) as [[_ ->]|[_ ->]]; [right; now left|now left].
      + intros x [<-|[<-|Hx]]; [specialize (H2 (Z.max a b) (or_introl eq_refl))|specialize (H2 (Z.max a b) (or_introl eq_refl))|apply H2; now right]; lia. }
  apply G.
Qed.

Lemma mask_signal_nframes {A} (s : psig A) N dat pil : mask_signal s N dat pil -> p_nframes s = Ok (N / p_frame_len s).
Proof.
  intros (Hr & Hrect & Hos & Hfl & _). unfold p_nframes. rewrite Hos, Nat.mul_1_l.
  destruct (Nat.eqb_spec (p_frame_len s) 0); [lia|]. now rewrite (row_len_rect _ N Hr Hrect).
Qed.

Lemma c30_extract {A} (s : psig A) N dat pil fs : mask_signal s N dat pil -> fs <> [] ->
  Forall (fun f => f < N / p_frame_len s) fs ->
  extract_pilots s (Some (map Z.of_nat fs)) =
    Ok (map (fun row => flat_map (fun f => mask_sel pil (frame_of (p_frame_len s) f row)) fs) (p_rows s)).
Proof.
  intros Hs Hne Hf. pose proof (mask_signal_nframes _ _ _ _ Hs) as Hn. destruct Hs as (Hr & Hrect & Hos & Hfl & Hd & Hp & Hld & Hlp).
  unfold extract_pilots. rewrite Hn. cbn [bind].
  destruct (zmax_spec (map Z.of_nat fs)) as (m & Em & Hin & _); [destruct fs; [congruence|discriminate]|].
  rewrite Em. cbn [bind]. rewrite Forall_forall in Hf. apply in_map_iff in Hin as (f & <- & Hin).
  pose proof (Hf f Hin) as Hlt. destruct (Z.leb_spec (Z.of_nat f) (Z.of_nat (N / p_frame_len s))); [|lia]. cbn [bind].
  destruct (map Z.of_nat fs) as [|z zs] eqn:Ez; [destruct fs; [congruence|discriminate]|]. rewrite <- Ez. clear Ez Em z zs.
  rewrite Hp. cbn [idx_nonzero]. apply mapM_ok. intros row Hrow.
  rewrite flat_map_concat_map, map_map, <- flat_map_concat_map.
  apply mapM_flat_map. intros g Hg. apply read_frame; [assumption|].
  unfold rect in Hrect. rewrite Forall_forall in Hrect. rewrite (Hrect row Hrow).
  specialize (Hf g Hg). pose proof (Nat.div_mod N (p_frame_len s) ltac:(lia)). nia.
Qed.

Lemma c30_get_err {A} (s : psig A) N dat pil fs : mask_signal s N dat pil -> 2 <= p_frame_len s ->
  (exists f, In f fs /\ (1 <= f)%Z) -> exists e, get_data s (Some fs) = Err e.
Proof.
  intros Hs H2 (f0 & Hf0 & Hge). pose proof (mask_signal_nframes _ _ _ _ Hs) as Hn. destruct Hs as (Hr & Hrect & Hos & Hfl & Hd & Hp & Hld & Hlp).
  unfold get_data. rewrite Hn. cbn [bind].
  destruct (zmax_spec fs) as (m & Em & Hin & Hmax); [intros ->; destruct Hf0|]. rewrite Em. cbn [bind].
  destruct (Z.leb_spec m (Z.of_nat (N / p_frame_len s))); [|cbn; eauto]. cbn [bind fst snd].
  specialize (Hmax f0 Hf0). destruct (Z.ltb_spec m 1); [lia|].
  rewrite Hd. cbn [idx_bools].
  destruct (fill_last_err dat (p_frame_len s) m Hld H2 fs (repeat false (p_frame_len s * Z.to_nat m))) as (e & E & _);
    [apply repeat_length|lia|assumption|].
  rewrite E. cbn. eauto.
Qed.

Lemma c30_get_zero_long {A} (s : psig A) N dat pil : mask_signal s N dat pil -> p_frame_len s < N ->
  get_data s (Some [0%Z]) = Err IndexError.
Proof.
  intros Hs H2. pose proof (mask_signal_nframes _ _ _ _ Hs) as Hn. destruct Hs as (Hr & Hrect & Hos & Hfl & Hd & Hp & Hld & Hlp).
  unfold get_data. rewrite Hn. cbn [bind zmax fold_left].
  destruct (Z.leb_spec 0 (Z.of_nat (N / p_frame_len s))); [|lia]. cbn [bind fst snd Z.ltb Z.compare].
  rewrite Hd, (row_len_rect _ N Hr Hrect). destruct (p_rows s) as [|row rows]; [congruence|]. cbn [mapM idx_get].
  inversion Hrect; subst. unfold mask_get. rewrite firstn_length.
  destruct (Nat.eqb_spec (Nat.min (length row) (length dat)) (length row)); [lia|]. reflexivity.
Qed.

Lemma c30_get_zero {A} (s : psig A) N dat pil : mask_signal s N dat pil -> p_frame_len s = N ->
  get_data s (Some [0%Z]) = Ok (map (mask_sel dat) (p_rows s)).
Proof.
  intros Hs H2. pose proof (mask_signal_nframes _ _ _ _ Hs) as Hn. destruct Hs as (Hr & Hrect & Hos & Hfl & Hd & Hp & Hld & Hlp).
  unfold get_data. rewrite Hn. cbn [bind zmax fold_left].
  destruct (Z.leb_spec 0 (Z.of_nat (N / p_frame_len s))); [|lia]. cbn [bind fst snd Z.ltb Z.compare].
  rewrite Hd, (row_len_rect _ N Hr Hrect), firstn_all2 by lia. cbn [idx_get]. apply mapM_mask_get with N; [assumption|lia].
Qed.

Lemma c30_gmi {A} (s : psig A) N dat pil : mask_signal s N dat pil -> 2 <= p_frame_len s -> 2 * p_frame_len s <= N ->
  exists e, gmi_data s None = Err e.
Proof.
  intros Hs H2 HN. pose proof (mask_signal_nframes _ _ _ _ Hs) as Hn. unfold gmi_data. rewrite Hn. cbn [bind].
  eapply c30_get_err; [eassumption|assumption|]. exists 1%Z. split; [|lia].
  apply in_map_iff. exists 1. split; [reflexivity|]. apply in_seq.
  destruct Hs as (_ & _ & _ & Hfl & _).
  assert (2 <= N / p_frame_len s) by (apply Nat.div_le_lower_bound; lia). lia.
Qed.

(** frames outside the signal are refused *)
Lemma mapM_err_in {X Y} (f : X -> result Y) l x : In x l -> (exists e, f x = Err e) -> exists e, mapM f l = Err e.
Proof.
  intros Hin (e & He). induction l as [|a l IH]; [destruct Hin|]. cbn. destruct Hin as [->|Hin].
  - rewrite He. cbn. eauto.
  - destruct (f a); cbn [bind]; [|eauto]. destruct (IH Hin) as (e' & ->). cbn. eauto.
Qed.
Lemma c30_reject {A} (s : psig A) n dat pil fs : mask_signal s (n * p_frame_len s) dat pil -> In true pil ->
  (exists f, In f fs /\ (Z.of_nat n <= f)%Z) -> exists e, extract_pilots s (Some fs) = Err e.
Proof.
  intros Hs Hpil (f & Hf & Hge). pose proof (mask_signal_nframes _ _ _ _ Hs) as Hn. destruct Hs as (Hr & Hrect & Hos & Hfl & Hd & Hp & Hld & Hlp).
  unfold extract_pilots. rewrite Hn. cbn [bind]. destruct (zmax fs); cbn [bind]; [|eauto]. destruct (_ <=? _)%Z; cbn [bind]; [|eauto].
  destruct fs as [|f0 fs]; [eauto|]. remember (f0 :: fs) as fs1. clear f0 fs Heqfs1.
  destruct (p_rows s) as [|row rows] eqn:Erows; [congruence|].
  apply mapM_err_in with row; [now left|].
  apply In_nth_error in Hpil as (k & Hk). pose proof (nth_error_Some_lt _ _ _ Hk) as Hkl.
  apply mapM_err_in with (Z.of_nat k + f * Z.of_nat (p_frame_len s))%Z.
  - apply in_flat_map. exists f. split; [assumption|]. apply in_map_iff. exists k. split; [reflexivity|].
    rewrite Hp. cbn [idx_nonzero]. now apply nonzero_spec.
  - unfold getz, getn. destruct (Z.leb_spec 0 (Z.of_nat k + f * Z.of_nat (p_frame_len s))); [|nia].
    inversion Hrect as [|? ? Hrow _]; subst. rewrite (proj2 (nth_error_None _ _)); [eauto|]. nia.
Qed.

(** all frames *)
Lemma get_data_all {A} (s : psig A) N dat pil n : mask_signal s N dat pil -> N = n * p_frame_len s -> 1 <= n ->
  get_data s None = Ok (map (mask_sel (tile n dat)) (p_rows s)).
Proof.
  intros Hs HN Hn1. pose proof (mask_signal_nframes _ _ _ _ Hs) as Hn. destruct Hs as (Hr & Hrect & Hos & Hfl & Hd & Hp & Hld & Hlp).
  unfold get_data. rewrite Hn. cbn [bind fst snd]. rewrite HN, Nat.div_mul by lia.
  destruct (Z.ltb_spec (Z.of_nat n) 1); [lia|]. rewrite Hd, Nat2Z.id. cbn [idx_bools].
  pose proof (fill_all dat (p_frame_len s) Hld n 0) as Hfill. cbn [tile repeat concat app Nat.add] in Hfill.
  change (tile 0 dat ++ repeat false (n * p_frame_len s)) with (repeat false (n * p_frame_len s)) in Hfill.
  rewrite Nat.mul_comm in Hfill. rewrite Hfill. cbn [bind]. apply mapM_mask_get with N; [assumption|]. rewrite tile_length. lia.
Qed.

Lemma mask_sel_tile_frames {A} m fl n (row : list A) : length m = fl -> length row = n * fl ->
  flat_map (fun f => mask_sel m (frame_of fl f row)) (seq 0 n) = mask_sel (tile n m) row.
Proof.
  intros Hm. revert row. induction n as [|n IH]; intros row Hr.
  - destruct row; [reflexivity|cbn in Hr; lia].
  - cbn [seq flat_map]. rewrite <- seq_shift, flat_map_concat_map, map_map, <- flat_map_concat_map.
    transitivity (mask_sel (tile (S n) m) (firstn fl row ++ skipn fl row)); [|now rewrite firstn_skipn].
    rewrite tile_S, mask_sel_app by (rewrite firstn_length; lia).
    f_equal.
    rewrite <- IH by (rewrite skipn_length; lia). apply flat_map_ext. intros f. unfold frame_of. cbn [Nat.mul].
    rewrite skipn_skipn'. reflexivity.
Qed.

Lemma extract_all {A} (s : psig A) N dat pil n : mask_signal s N dat pil -> N = n * p_frame_len s -> 1 <= n ->
  extract_pilots s None = Ok (map (mask_sel (tile n pil)) (p_rows s)).
Proof.
  intros Hs HN Hn1. pose proof (mask_signal_nframes _ _ _ _ Hs) as Hn.
  pose proof (proj1 (proj2 (proj2 (proj2 Hs)))) as Hfl.
  assert (Hdiv : N / p_frame_len s = n) by (rewrite HN; apply Nat.div_mul; lia).
  assert (E : extract_pilots s None = extract_pilots s (Some (map Z.of_nat (seq 0 n)))).
  { unfold extract_pilots. rewrite Hn, Hdiv. cbn [bind].
    destruct (zmax_spec (map Z.of_nat (seq 0 n))) as (m & Em & Hin & _); [destruct n; [lia|discriminate]|].
    rewrite Em. cbn [bind]. apply in_map_iff in Hin as (f & <- & Hin). apply in_seq in Hin.
    destruct (Z.leb_spec (Z.of_nat f) (Z.of_nat n)); [reflexivity|lia]. }
  assert (Hse : seq 0 n <> []) by (destruct n; [lia|discriminate]).
  assert (Hfo : Forall (fun f => f < N / p_frame_len s) (seq 0 n)) by (apply Forall_forall; intros f Hf; apply in_seq in Hf; lia).
  rewrite E, (c30_extract s N dat pil) by assumption.
  f_equal. apply map_ext_in. intros row Hrow.
  destruct Hs as (_ & Hrect & _ & _ & _ & _ & _ & Hlp).
  apply mask_sel_tile_frames; [assumption|]. unfold rect in Hrect. rewrite Forall_forall in Hrect. rewrite (Hrect row Hrow). exact HN.
Qed.

(** ** C29 / C31: construction *)
Lemma pilot_new_ok {A} (junk : A) (genp gend : nat -> list (list A)) (fl sq rat n nmodes : nat) (rd rp : bool) :
  sq <= fl -> 0 < fl -> (rat = 0 \/ Nat.divide rat (fl - sq)) -> 1 <= nmodes ->
  well_shaped nmodes genp -> well_shaped nmodes gend -> (rp = true \/ n = 1) ->
  let pil := genp (n_pilots fl sq rat) in
  let symbs := if rd then map (tile n) (gend (fl - n_pilots fl sq rat)) else gend ((fl - n_pilots fl sq rat) * n) in
  exists s, pilot_new junk genp gend fl (Z.of_nat sq) (Z.of_nat rat) n nmodes rd rp = Ok s /\
    length (p_rows s) = nmodes /\ rect (p_rows s) (n * fl) /\
    p_symbols s = symbs /\ p_pilots s = map (tile n) pil /\ p_frame_len s = fl /\
    (1 <= n -> get_data s None = Ok symbs /\ extract_pilots s None = Ok (map (tile n) pil)).
Proof.
  intros Hs Hfl Hr Hnm Hgp Hgd Hrp. cbn zeta. 
  assert (Hr' : rat <> 0 -> (fl - sq) mod rat = 0).
  { intros Hne. destruct Hr as [|Hr]; [lia|]. now apply Nat.mod_divide in Hr. }
  unfold pilot_new. rewrite cal_pilot_idx_mask by assumption. cbn [bind fst snd].
  pose proof (pil_mask_length fl sq rat Hs Hr') as Lm. pose proof (pil_mask_count fl sq rat) as Cm.
  pose proof (count_true_neg (pil_mask fl sq rat)) as Cn. set (pm := pil_mask fl sq rat) in *.
  set (np := n_pilots fl sq rat) in *. rewrite Cm. replace (count_true (map negb pm)) with (fl - np) by lia.
  assert (Hpil : (if rp then map (tile n) (genp np) else genp np) = map (tile n) (genp np)).
  { destruct rp; [reflexivity|]. destruct Hrp as [H|H]; [discriminate|]. subst n.
    rewrite <- (map_id (genp np)) at 1. apply map_ext. intros r. now rewrite tile_1. }
  rewrite Hpil.
  set (symbs := if rd then map (tile n) (gend (fl - np)) else gend ((fl - np) * n)).
  destruct (Hgp np) as [Lp Rp].
  assert (Hsy : length symbs = nmodes /\ rect symbs (n * (fl - np))).
  { unfold symbs. destruct rd.
    - destruct (Hgd (fl - np)) as [L R]. split; [now rewrite map_length|]. now apply rect_tile.
    - destruct (Hgd ((fl - np) * n)) as [L R]. split; [assumption|]. replace (n * (fl - np)) with ((fl - np) * n) by lia. exact R. }
  destruct Hsy as [Lsy Rsy].
  set (out0 := repeat (repeat junk (fl * n)) nmodes).
  assert (R0 : rect out0 (fl * n)) by (apply rect_repeat, repeat_length).
  assert (L0 : length out0 = nmodes) by apply repeat_length.
  set (P := map (tile n) (genp np)).
  assert (LP : length P = nmodes) by (unfold P; now rewrite map_length).
  assert (RP : rect P (count_true (tile n pm))) by (rewrite count_true_tile, Cm; now apply rect_tile).
  rewrite (rows_assign_ok (tile n pm) P out0 (fl * n)) by (try assumption; try congruence; rewrite tile_length; lia).
  cbn [bind]. set (out1 := put_rows (tile n pm) P out0).
  assert (L1 : length out1 = nmodes) by (unfold out1; rewrite put_rows_length; congruence).
  assert (R1 : rect out1 (fl * n)) by now apply put_rows_rect.
  assert (Rsy' : rect symbs (count_true (tile n (map negb pm)))).
  { rewrite count_true_tile. replace (count_true (map negb pm)) with (fl - np) by lia. assumption. }
  rewrite (rows_assign_ok (tile n (map negb pm)) symbs out1 (fl * n)) by (try assumption; try congruence; rewrite tile_length, map_length; lia).
  cbn [bind]. set (out2 := put_rows (tile n (map negb pm)) symbs out1).
  assert (L2 : length out2 = nmodes) by (unfold out2; rewrite put_rows_length; congruence).
  assert (R2 : rect out2 (fl * n)) by now apply put_rows_rect.
  eexists. split; [reflexivity|]. cbn [p_rows p_symbols p_pilots p_frame_len].
  split; [exact L2|]. split; [now rewrite Nat.mul_comm|]. split; [reflexivity|]. split; [reflexivity|]. split; [reflexivity|].
  intros Hn1.
  set (s := mk_psig out2 1 fl (Z.of_nat sq) symbs P (IMask (map negb pm)) (IMask pm)).
  assert (Hsig : mask_signal s (fl * n) (map negb pm) pm).
  { unfold mask_signal, s. cbn. repeat split; try assumption; try reflexivity; [|now rewrite map_length].
    intros E. rewrite E in L2. cbn in L2. lia. }
  split.
  - rewrite (get_data_all s (fl * n) _ _ n Hsig) by (cbn [p_frame_len s]; lia). f_equal. cbn [p_rows s].
    unfold out2. apply put_rows_sel with (fl * n); try assumption; try congruence. rewrite tile_length, map_length. lia.
  - rewrite (extract_all s (fl * n) _ _ n Hsig) by (cbn [p_frame_len s]; lia). f_equal. cbn [p_rows s].
    unfold out2. rewrite <- (map_negb_invol (tile n pm)) at 1. rewrite <- tile_map.
    rewrite (put_rows_sel_neg _ _ _ (fl * n)); try assumption; try congruence; [|rewrite tile_length, map_length; lia].
    rewrite tile_map, map_negb_invol. unfold out1. apply put_rows_sel with (fl * n); try assumption; try congruence. rewrite tile_length. lia.
Qed.

Lemma c31_bad {A} (junk : A) (genp gend : nat -> list (list A)) (fl sq rat n nmodes : nat) (rd : bool) :
  sq <= fl -> (rat = 0 \/ Nat.divide rat (fl - sq)) -> 1 <= nmodes -> well_shaped nmodes genp ->
  2 <= n -> 2 <= n_pilots fl sq rat ->
  pilot_new junk genp gend fl (Z.of_nat sq) (Z.of_nat rat) n nmodes rd false = Err ValueError.
Proof.
  intros Hs Hr Hnm Hgp Hn Hnp.
  assert (Hr' : rat <> 0 -> (fl - sq) mod rat = 0).
  { intros Hne. destruct Hr as [|Hr]; [lia|]. now apply Nat.mod_divide in Hr. }
  unfold pilot_new. rewrite cal_pilot_idx_mask by assumption. cbn [bind fst snd]. rewrite pil_mask_count.
  destruct (Hgp (n_pilots fl sq rat)) as [L R]. unfold rows_assign. rewrite bcast_same by (rewrite repeat_length; assumption).
  cbn [bind]. destruct (genp (n_pilots fl sq rat)) as [|r rs] eqn:Eg; [cbn in L; lia|]. destruct nmodes; [lia|].
  cbn [repeat combine mapM idx_assign fst snd]. unfold mask_assign.
  rewrite tile_length, repeat_length, pil_mask_length, Nat.mul_comm, Nat.eqb_refl by assumption. cbn [negb].
  inversion R; subst. rewrite bcast_err; [reflexivity| |lia].
  rewrite count_true_tile, pil_mask_count. nia.
Qed.
