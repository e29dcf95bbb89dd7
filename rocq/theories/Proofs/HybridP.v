(** Time-domain hybrid signals: placement of the two constellations. *)
From Coq Require Import String List ZArith QArith Qabs Reals Bool Arith Lia Lra ZifyBool ZifyNat ZifyN.
From Verif Require Import Common.Py Common.ListX Common.Cplx Model.Fractions Model.Hybrid Spec.Closest Spec.HybridS Proofs.FractionsP.
Import ListNotations.
Local Open Scope nat_scope.

(** ** masks *)
Definition cnt (m : list bool) : nat := length (filter (fun b => b) m).
Lemma mask_fill_length {A} m (o v : list A) : length (mask_fill m o v) = length o.
Proof. revert o v. induction m as [|[] m IH]; intros [|x o] v; cbn; try reflexivity; [destruct v; cbn; now rewrite IH|now rewrite IH]. Qed.
Lemma mask_fill_nth {A} m (o v : list A) i : length m = length o -> cnt m = length v -> i < length m ->
  nth_error (mask_fill m o v) i = if nth i m false then nth_error v (cnt (firstn i m)) else nth_error o i.
Proof.
  revert o v i. induction m as [|b m IH]; intros [|x o] v i Hl Hc Hi; cbn [length] in *; try lia.
  destruct b.
  - destruct v as [|y v]; cbn in Hc; [discriminate|]. destruct i as [|i]; [reflexivity|]. cbn [mask_fill nth_error nth firstn].
    rewrite IH by (cbn in Hc; unfold cnt; lia). destruct (nth i m false); [|reflexivity]. reflexivity.
  - destruct i as [|i]; [reflexivity|]. cbn [mask_fill nth_error nth firstn]. rewrite IH by (cbn in Hc; unfold cnt in *; lia).
    destruct (nth i m false); reflexivity.
Qed.
Lemma mask_put_ok {A} m (o v : list A) : length v = cnt m -> mask_put m o v = Ok (mask_fill m o v).
Proof. intros H. unfold mask_put. fold (cnt m). now rewrite H, Nat.eqb_refl. Qed.
Lemma mask_put_bad {A} m (o v : list A) : length v <> cnt m -> length v <> 1 -> mask_put m o v = Err ValueError.
Proof. intros H H1. unfold mask_put. fold (cnt m). apply Nat.eqb_neq in H. rewrite H. destruct v as [|x [|y v]]; try reflexivity. now cbn in H1. Qed.

(** ** ranks *)
Definition first_part (a f : nat) (i : nat) : bool := i mod f <? a.
Lemma cnt_app m m' : cnt (m ++ m') = cnt m + cnt m'.
Proof. unfold cnt. now rewrite filter_app, app_length. Qed.
Lemma cnt_negb m : cnt (map negb m) = length m - cnt m.
Proof.
  assert (H : cnt (map negb m) + cnt m = length m); [|lia]. induction m as [|[] m IH]; [reflexivity| |]; unfold cnt in *; cbn; lia.
Qed.
Lemma rank a b k : a <= a + b -> 0 < a + b -> cnt (map (first_part a (a + b)) (seq 0 k)) = k / (a + b) * a + Nat.min (k mod (a + b)) a.
Proof.
  intros _ Hf. induction k as [|k IH].
  - rewrite Nat.div_small, Nat.mod_small by lia. reflexivity.
  - rewrite seq_S, map_app, cnt_app, IH. cbn [map plus]. unfold first_part at 1. unfold cnt at 1.
    set (f := a + b) in *. pose proof (Nat.div_mod_eq k f) as E. pose proof (Nat.mod_upper_bound k f ltac:(lia)) as U.
    destruct (Nat.eq_dec (k mod f) (f - 1)) as [L|L].
    + assert (H1 : S k = f * (S (k / f)) + 0) by lia.
      assert (Hd : S k / f = S (k / f)) by (symmetry; apply (Nat.div_unique _ _ _ 0); lia).
      assert (Hm : S k mod f = 0) by (symmetry; apply (Nat.mod_unique _ _ (S (k / f)) 0); lia).
      rewrite Hd, Hm. destruct (Nat.ltb_spec (k mod f) a); cbn [filter length]; lia.
    + assert (Hd : S k / f = k / f) by (symmetry; apply (Nat.div_unique _ _ _ (S (k mod f))); lia).
      assert (Hm : S k mod f = S (k mod f)) by (symmetry; apply (Nat.mod_unique _ _ (k / f) _); lia).
      rewrite Hd, Hm. destruct (Nat.ltb_spec (k mod f) a); cbn [filter length]; lia.
Qed.
Lemma rank_at a b q p : p < a + b -> cnt (map (first_part a (a + b)) (seq 0 (q * (a + b) + p))) = q * a + Nat.min p a.
Proof.
  intros H. rewrite rank by lia. replace ((q * (a + b) + p) / (a + b)) with q by (apply (Nat.div_unique _ _ _ p); lia).
  replace ((q * (a + b) + p) mod (a + b)) with p by (apply (Nat.mod_unique _ _ q); lia). reflexivity.
Qed.
Lemma rank_all a b n : 0 < a + b -> cnt (map (first_part a (a + b)) (seq 0 (n * (a + b)))) = n * a.
Proof. intros H. rewrite <- (Nat.add_0_r (n * (a + b))), rank_at by lia. lia. Qed.
Lemma firstn_seq i n s : i <= n -> firstn i (seq s n) = seq s i.
Proof. revert s n. induction i as [|i IH]; intros s [|n] H; try lia; cbn; [reflexivity|reflexivity|]. f_equal. apply IH. lia. Qed.
Lemma nth_map_seq {A} (g : nat -> A) d n i : i < n -> nth i (map g (seq 0 n)) d = g i.
Proof. intros H. rewrite nth_indep with (d' := g 0) by (rewrite map_length, seq_length; lia). rewrite map_nth. now rewrite seq_nth by lia. Qed.

Section Place.
Context {A : Type}.
Lemma place_row (n a b : nat) (z v1 v2 : list A) : 0 < a + b -> length z = n * (a + b) -> length v1 = n * a -> length v2 = n * b ->
  let m1 := map (first_part a (a + b)) (seq 0 (n * (a + b))) in
  let m2 := map negb m1 in
  exists r1 r2, mask_put m1 z v1 = Ok r1 /\ length r1 = n * (a + b) /\ mask_put m2 r1 v2 = Ok r2 /\ frames_of_two n a b r2 v1 v2.
Proof.
  intros Hf Hz H1 H2 m1 m2. assert (Hl1 : length m1 = n * (a + b)) by (unfold m1; now rewrite map_length, seq_length).
  assert (Hl2 : length m2 = n * (a + b)) by (unfold m2; now rewrite map_length).
  assert (C1 : cnt m1 = n * a) by (apply rank_all; lia).
  assert (C2 : cnt m2 = n * b) by (unfold m2; rewrite cnt_negb, C1, Hl1; lia).
  exists (mask_fill m1 z v1), (mask_fill m2 (mask_fill m1 z v1) v2). split; [apply mask_put_ok; lia|].
  split; [now rewrite mask_fill_length|]. split; [apply mask_put_ok; lia|].
  split; [now rewrite !mask_fill_length|]. split; [assumption|]. split; [assumption|].
  assert (Hn2 : forall i, i < n * (a + b) -> nth i m2 false = negb (nth i m1 true)).
  { intros i Hi. unfold m2. rewrite <- (map_nth negb m1 true i). reflexivity. }
  intros q p Hq. assert (Hb : q * (a + b) + (a + b) <= n * (a + b)) by nia. split; intros Hp.
  - assert (Hi : q * (a + b) + p < n * (a + b)) by lia.
    assert (Hm : forall d, nth (q * (a + b) + p) m1 d = true).
    { intros d. unfold m1. rewrite nth_map_seq by lia. unfold first_part.
      replace ((q * (a + b) + p) mod (a + b)) with p by (apply (Nat.mod_unique _ _ q); lia). apply Nat.ltb_lt. lia. }
    rewrite mask_fill_nth by (rewrite ?mask_fill_length; lia). rewrite Hn2, Hm by lia. cbn [negb].
    rewrite mask_fill_nth by lia. rewrite Hm. unfold m1. rewrite firstn_map, firstn_seq by lia. rewrite rank_at by lia. f_equal. lia.
  - assert (Hi : q * (a + b) + a + p < n * (a + b)) by lia.
    assert (Hm : forall d, nth (q * (a + b) + a + p) m1 d = false).
    { intros d. unfold m1. rewrite nth_map_seq by lia. unfold first_part.
      replace ((q * (a + b) + a + p) mod (a + b)) with (a + p) by (apply (Nat.mod_unique _ _ q); lia). apply Nat.ltb_ge. lia. }
    rewrite mask_fill_nth by (rewrite ?mask_fill_length; lia). rewrite Hn2, Hm by lia. cbn [negb].
    unfold m2. rewrite firstn_map, cnt_negb. unfold m1. rewrite firstn_map, firstn_seq by lia.
    rewrite map_length, seq_length. replace (q * (a + b) + a + p) with (q * (a + b) + (a + p)) by lia. rewrite rank_at by lia. f_equal. lia.
Qed.
End Place.

Lemma idx_masks n f a : (0 < f)%nat -> cal_symbol_idx (Z.of_nat n) (Z.of_nat f) (Z.of_nat a) =
  (map (first_part a f) (seq 0 n), map negb (map (first_part a f) (seq 0 n))).
Proof.
  intros Hf. unfold cal_symbol_idx. rewrite Nat2Z.id, !map_map. f_equal; apply map_ext; intros i; unfold first_part; rewrite <- Nat2Z.inj_mod.
  - destruct (Nat.ltb_spec (i mod f) a), (Z.ltb_spec (Z.of_nat (i mod f)) (Z.of_nat a)); try reflexivity; lia.
  - destruct (Nat.ltb_spec (i mod f) a), (Z.leb_spec (Z.of_nat a) (Z.of_nat (i mod f))); try reflexivity; lia.
Qed.

Lemma assemble_ok n a b syms1 syms2 : (0 < a + b)%nat -> length syms1 = length syms2 ->
  (forall r, In r syms1 -> length r = n * a) -> (forall r, In r syms2 -> length r = n * b) ->
  exists out, assemble (Z.of_nat (n * (a + b))) (Z.of_nat (a + b)) (Z.of_nat a) syms1 syms2 = Ok out /\
    length out = length syms1 /\
    forall i r1 r2, nth_error syms1 i = Some r1 -> nth_error syms2 i = Some r2 ->
      exists row, nth_error out i = Some row /\ frames_of_two n a b row r1 r2.
Proof.
  intros Hf. unfold assemble. replace (Z.of_nat (n * (a + b)) <? 0)%Z with false by lia. rewrite idx_masks, Nat2Z.id by assumption.
  set (m1 := map (first_part a (a + b)) (seq 0 (n * (a + b)))).
  revert syms2. induction syms1 as [|r1 syms1 IH]; intros [|r2 syms2] Hl H1 H2; try discriminate Hl.
  - exists []. split; [reflexivity|]. split; [reflexivity|]. intros [|i] ? ? Hi; discriminate Hi.
  - destruct (place_row n a b (repeat C0 (n * (a + b))) r1 r2 Hf (repeat_length _ _) (H1 r1 (or_introl eq_refl)) (H2 r2 (or_introl eq_refl)))
      as (o1 & o2 & E1 & _ & E2 & Hfr). fold m1 in E1, E2.
    destruct (IH syms2) as (out & E & Hlen & Hrest); [now injection Hl|intros; apply H1; now right|intros; apply H2; now right|].
    cbn [map mask_put_rows]. rewrite E1. cbn [bind]. destruct (mask_put_rows m1 _ syms1) as [out1|] eqn:Eo; [|discriminate E]. cbn [bind] in *.
    cbn [mask_put_rows]. rewrite E2. cbn [bind]. rewrite E. cbn [bind]. exists (o2 :: out). split; [reflexivity|]. split; [cbn; congruence|].
    intros [|i] x1 x2 Hx1 Hx2; [|now apply Hrest]. injection Hx1 as <-. injection Hx2 as <-. exists o2. split; [reflexivity|exact Hfr].
Qed.

Lemma assemble_bad n a b syms1 syms2 r1 r2 : (0 < a + b)%nat -> hd_error syms1 = Some r1 -> hd_error syms2 = Some r2 ->
  length r1 <> 1 -> length r2 <> 1 -> (length r1 <> n * a \/ length r2 <> n * b) ->
  (forall r, In r syms1 -> length r = length r1) ->
  assemble (Z.of_nat (n * (a + b))) (Z.of_nat (a + b)) (Z.of_nat a) syms1 syms2 = Err ValueError.
Proof.
  intros Hf E1 E2 N1 N2 Hor Heq. unfold assemble. replace (Z.of_nat (n * (a + b)) <? 0)%Z with false by lia. rewrite idx_masks, Nat2Z.id by assumption.
  set (m1 := map (first_part a (a + b)) (seq 0 (n * (a + b)))).
  assert (C1 : cnt m1 = n * a) by (apply rank_all; lia).
  assert (C2 : cnt (map negb m1) = n * b) by (rewrite cnt_negb, C1; unfold m1; rewrite map_length, seq_length; lia).
  destruct syms1 as [|x1 syms1]; [discriminate|]. injection E1 as ->. destruct syms2 as [|x2 syms2]; [discriminate|]. injection E2 as ->.
  destruct (Nat.eq_dec (length r1) (n * a)) as [H|H].
  - destruct Hor as [?|Hor]; [lia|].
    assert (G : forall l : list (list C), (forall r, In r l -> length r = length r1) -> exists o,
      mask_put_rows m1 (map (fun _ : list C => repeat C0 (n * (a + b))) l) l = Ok o /\ length o = length l).
    { induction l as [|r l IHl]; intros Hr; [exists []; now split|]. cbn [map mask_put_rows]. rewrite mask_put_ok by (rewrite C1, Hr by (now left); assumption).
      cbn [bind]. destruct IHl as (o & Eo & Ho); [intros; apply Hr; now right|]. rewrite Eo. cbn [bind]. eexists. split; [reflexivity|]. cbn. now rewrite Ho. }
    destruct (G (r1 :: syms1) Heq) as (o & Eo & Ho). rewrite Eo. cbn [bind]. destruct o as [|o1 o]; [discriminate|]. cbn [mask_put_rows].
    rewrite mask_put_bad by (rewrite ?C2; assumption). reflexivity.
  - cbn [map mask_put_rows]. rewrite mask_put_bad by (rewrite ?C1; assumption). reflexivity.
Qed.
