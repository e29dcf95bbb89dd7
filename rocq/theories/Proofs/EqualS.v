(** Partition codes (C54), error functions (C55). *)
From Coq Require Import String List ZArith Arith Bool Reals Lia Lra Sorted.
From Verif Require Import Common.Py Common.ListX Common.Cplx Common.SumX.
From Verif Require Import Spec.Seq Spec.Geometry Spec.Metrics Spec.Equal Model.Constellation Model.Decision Model.Equaliser.
From Verif Require Import Proofs.DecisionP Proofs.ConstP Proofs.QamP Proofs.QualityQ Proofs.EqualP.
Import ListNotations.
Local Open Scope R_scope.

(** ** np.unique *)
Lemma uinsert_in x y l : In y (uinsert x l) <-> y = x \/ In y l.
Proof.
  induction l as [|a l IH]; cbn [uinsert In]; [intuition congruence|].
  destruct (Rlt_dec x a); [cbn [In]; intuition congruence|].
  destruct (Rlt_dec a x); cbn [In].
  - rewrite IH. intuition congruence.
  - assert (x = a) by lra. subst. intuition congruence.
Qed.
Lemma uinsert_sorted x l : StronglySorted Rlt l -> StronglySorted Rlt (uinsert x l).
Proof.
  induction l as [|a l IH]; intros H; cbn [uinsert]; [repeat constructor|].
  apply StronglySorted_inv in H as [Hs Ha]. rewrite Forall_forall in Ha.
  destruct (Rlt_dec x a) as [Hx|Hx].
  - constructor; [constructor; [assumption|now rewrite Forall_forall]|]. rewrite Forall_forall.
    intros y [<-|Hy]; [assumption|]. specialize (Ha y Hy). lra.
  - destruct (Rlt_dec a x).
    + constructor; [now apply IH|]. rewrite Forall_forall. intros y Hy. apply uinsert_in in Hy as [->|Hy]; auto.
    + constructor; [assumption|now rewrite Forall_forall].
Qed.
Lemma unique_in l y : In y (unique l) <-> In y l.
Proof.
  induction l as [|a l IH]; [reflexivity|]. unfold unique in *. cbn [fold_right In]. rewrite uinsert_in, IH.
  intuition congruence.
Qed.
Lemma unique_sorted l : StronglySorted Rlt (unique l).
Proof. induction l as [|a l IH]; [constructor|]. unfold unique in *. cbn [fold_right]. now apply uinsert_sorted. Qed.
Lemma sorted_unique l1 : forall l2, StronglySorted Rlt l1 -> StronglySorted Rlt l2 ->
  (forall x, In x l1 <-> In x l2) -> l1 = l2.
Proof.
  induction l1 as [|a l1 IH]; intros [|b l2] H1 H2 H.
  - reflexivity.
  - destruct (proj2 (H b)); now left.
  - destruct (proj1 (H a)); now left.
  - apply StronglySorted_inv in H1 as [H1 Ha]. apply StronglySorted_inv in H2 as [H2 Hb].
    rewrite Forall_forall in Ha, Hb.
    assert (a = b).
    { destruct (proj1 (H a)) as [E|Hin]; [now left|congruence|].
      destruct (proj2 (H b)) as [E|Hin']; [now left|congruence|].
      specialize (Ha b Hin'). specialize (Hb a Hin). lra. }
    subst b. f_equal. apply IH; [assumption|assumption|]. intros x. split; intros Hx.
    + destruct (proj1 (H x)) as [E|]; [now right| |assumption]. subst x. specialize (Ha a Hx). lra.
    + destruct (proj2 (H x)) as [E|]; [now right| |assumption]. subst x. specialize (Hb a Hx). lra.
Qed.

(** ** the nearest code *)
Fixpoint pidx (x : R) (parts : list R) : nat :=
  match parts with [] => 0 | p :: l => if Rlt_dec p x then S (pidx x l) else 0 end.
Lemma partition_index_map x fct (parts : list C) : partition_index x fct parts = pidx x (map fct parts).
Proof. induction parts as [|p l IH]; [reflexivity|]. cbn [partition_index map pidx]. now rewrite IH. Qed.
Lemma midpoints_length l : length (midpoints l) = (length l - 1)%nat.
Proof.
  induction l as [|a l IH]; [reflexivity|]. destruct l as [|b l]; [reflexivity|].
  change (midpoints (a :: b :: l)) with ((a + (b - a) / 2) :: midpoints (b :: l)). cbn [length] in *. rewrite IH. lia.
Qed.
Lemma nearest_mid x codes : StronglySorted Rlt codes -> codes <> [] ->
  exists c, nth_error codes (pidx x (midpoints codes)) = Some c /\ nearest_code (fun y => In y codes) x c.
Proof.
  induction codes as [|a l IH]; intros Hs Hne; [congruence|]. destruct l as [|b l].
  - exists a. split; [reflexivity|]. split; [now left|]. intros c' [<-|[]]. lra.
  - change (midpoints (a :: b :: l)) with ((a + (b - a) / 2) :: midpoints (b :: l)). cbn [pidx].
    apply StronglySorted_inv in Hs as [Hs Ha]. rewrite Forall_forall in Ha.
    pose proof (Ha b (or_introl eq_refl)) as Hab.
    destruct (Rlt_dec (a + (b - a) / 2) x) as [Hx|Hx].
    + destruct (IH Hs ltac:(congruence)) as [c [Hc [Hin Hmin]]]. exists c. split; [exact Hc|].
      split; [now right|]. intros c' [<-|Hin'].
      * specialize (Hmin b (or_introl eq_refl)). revert Hmin. unfold Rabs. repeat destruct (Rcase_abs _); lra.
      * now apply Hmin.
    + exists a. split; [reflexivity|]. split; [now left|]. intros c' [<-|Hin']; [lra|].
      assert (Hc : b <= c').
      { destruct Hin' as [<-|Hin']; [lra|]. apply StronglySorted_inv in Hs as [_ Hb].
        rewrite Forall_forall in Hb. specialize (Hb c' Hin'). lra. }
      unfold Rabs. repeat destruct (Rcase_abs _); lra.
Qed.
Lemma split_codes {A} (codes parts : list A) : length parts = (length codes - 1)%nat -> codes <> [] ->
  array_split2 (codes ++ parts) = (codes, parts).
Proof.
  intros Hl Hne. unfold array_split2. rewrite app_length, Hl.
  assert (Hc : (1 <= length codes)%nat) by (destruct codes; [congruence|cbn; lia]).
  replace ((length codes + (length codes - 1) + 1) / 2)%nat with (length codes).
  - f_equal.
    + rewrite firstn_app, Nat.sub_diag, firstn_all. cbn [firstn]. apply app_nil_r.
    + rewrite skipn_app, Nat.sub_diag, skipn_all. reflexivity.
  - replace (length codes + (length codes - 1) + 1)%nat with (length codes * 2)%nat by lia. now rewrite Nat.div_mul.
Qed.
(** both components of the table are the sorted codes and their midpoints *)
Lemma partition_value_nearest fct (cb pt : list C) codes x : map fct cb = codes -> map fct pt = midpoints codes ->
  StronglySorted Rlt codes -> codes <> [] ->
  exists r, partition_value x pt cb fct = Ok r /\ nearest_code (fun y => In y codes) x r.
Proof.
  intros Hcb Hpt Hs Hne. unfold partition_value. rewrite partition_index_map, Hpt.
  destruct (nearest_mid x codes Hs Hne) as [c [Hc Hn]].
  assert (Hz : nth_error (map fct cb) (pidx x (midpoints codes)) = Some c) by (rewrite Hcb; exact Hc).
  rewrite nth_error_map in Hz. unfold getn.
  destruct (nth_error cb (pidx x (midpoints codes))) as [z|]; [|discriminate]. cbn [bind option_map] in *.
  injection Hz as Hz. exists c. split; [congruence|assumption].
Qed.

(** ** the alphabet *)
Lemma alphabet_in k s : In s (qam_alphabet k) <->
  exists z, In z (cal_symbols_qam k) /\ s = Cscal (/ sqrt (cal_scaling_factor_qam k)) (ZtoC z).
Proof. unfold qam_alphabet. rewrite in_map_iff. split; intros [z [A B]]; exists z; auto. Qed.
Lemma inv_scale_pos k : (1 <= k)%nat -> 0 < / sqrt (cal_scaling_factor_qam k).
Proof. intros H. apply Rinv_0_lt_compat, sqrt_lt_R0, scale_pos, H. Qed.
Lemma qam_re_odd k z : (1 <= k)%nat -> In z (cal_symbols_qam k) -> Z.Odd (fst z).
Proof.
  intros Hk H. unfold cal_symbols_qam in H. destruct (Nat.odd k) eqn:Eo.
  - destruct (Nat.lt_ge_cases ((k - 1) / 2) 2) as [Hl|Hl].
    + apply cross_qam_in_small in H; [|assumption]. apply H.
    + apply cross_qam_in in H; [|assumption]. apply H.
  - apply square_qam_in in H; [apply H|]. destruct k as [|[|k]]; [lia|discriminate|].
    apply Nat.div_str_pos. lia.
Qed.
Lemma IZR_odd_neq0 z : Z.Odd z -> IZR z <> 0.
Proof. intros [q ->] H. apply (eq_IZR _ 0) in H. lia. Qed.
Lemma alphabet_re_neq0 k s : (1 <= k)%nat -> In s (qam_alphabet k) -> Re s <> 0.
Proof.
  intros Hk H. apply alphabet_in in H as [z [Hz ->]]. unfold Re, Cscal, ZtoC. cbn [fst snd].
  apply Rmult_integral_contrapositive. split; [pose proof (inv_scale_pos k Hk); lra|].
  apply IZR_odd_neq0. now apply (qam_re_odd k).
Qed.
Lemma alphabet_nonempty k : (1 <= k)%nat -> qam_alphabet k <> [].
Proof.
  intros Hk H. apply (f_equal (@length C)) in H. unfold qam_alphabet in H. rewrite map_length, cal_symbols_qam_length in H.
  cbn [length] in H. pose proof (Nat.pow_nonzero 2 k ltac:(lia)). lia.
Qed.
Lemma power_codes_some l : (forall x, In x l -> x <> 0) ->
  exists codes, power_codes l = Some codes /\ StronglySorted Rlt codes /\
    forall y, In y codes <-> exists x, In x l /\ y = x * x.
Proof.
  intros H. unfold power_codes.
  assert (Hf : forallb (fun x => if Req_EM_T x 0 then false else true) l = true).
  { apply forallb_forall. intros x Hx. destruct (Req_EM_T x 0); [now specialize (H x Hx)|reflexivity]. }
  rewrite Hf. eexists. split; [reflexivity|]. split; [apply unique_sorted|]. intros y. rewrite unique_in, in_map_iff.
  assert (Hq : forall x, In x l -> Rabs x ^ 4 / Rabs x ^ 2 = x * x).
  { intros x Hx. assert (Hx0 : Rabs x <> 0) by (apply Rabs_no_R0; auto).
    replace (x * x) with (Rabs x ^ 2) by (rewrite pow2_abs; ring). field. assumption. }
  split; intros [x [A B]]; exists x.
  - split; [assumption|]. rewrite <- A. now apply Hq.
  - split; [|assumption]. rewrite B. symmetry. symmetry. now apply Hq.
Qed.

(** ** C54, radius directed *)
Definition rde_row (codes : list R) : list C := map RtoC (codes ++ midpoints codes).
Lemma map_Re_RtoC l : map Re (map RtoC l) = l.
Proof. rewrite map_map. cbn [Re RtoC fst]. apply map_id. Qed.
Lemma rde_nearest codes x i : StronglySorted Rlt codes -> codes <> [] ->
  exists r, rde_error x (rde_row codes) i = Ok (err_cma r x) /\ nearest_code (fun y => In y codes) (Cnorm2 x) r.
Proof.
  intros Hs Hne. unfold rde_error, rde_row. rewrite map_app, split_codes.
  - rewrite Cabs_pow2.
    destruct (partition_value_nearest Re (map RtoC codes) (map RtoC (midpoints codes)) codes (Cnorm2 x)) as [r [Hr Hn]];
      [apply map_Re_RtoC|apply map_Re_RtoC|assumption|assumption|].
    rewrite Hr. cbn [bind]. exists r. split; [reflexivity|assumption].
  - rewrite !map_length. apply midpoints_length.
  - destruct codes; [congruence|discriminate].
Qed.
Lemma codes_nonempty l codes : (forall y, In y codes <-> exists x : R, In x l /\ y = x * x) -> l <> [] -> codes <> [].
Proof.
  intros H Hne ->. destruct l as [|x l]; [congruence|]. destruct (proj2 (H (x * x))). exists x. split; [now left|reflexivity].
Qed.
Lemma radius_codes k : (1 <= k)%nat -> exists codes,
  generate_partition_codes_radius k = Some (codes ++ midpoints codes) /\ StronglySorted Rlt codes /\ codes <> [] /\
  forall y, In y codes <-> exists s, In s (qam_alphabet k) /\ y = Cnorm2 s.
Proof.
  intros Hk. unfold generate_partition_codes_radius.
  destruct (power_codes_some (map Cabs (qam_alphabet k))) as [codes [-> [Hs Hin]]].
  { intros x Hx. apply in_map_iff in Hx as [s [<- Hx]]. intros H0. apply (alphabet_re_neq0 k s Hk Hx).
    assert (Cnorm2 s = 0) by (rewrite <- Cabs_sqr, H0; ring). apply Cnorm2_zero in H. now subst s. }
  exists codes. split; [reflexivity|]. split; [assumption|]. split.
  - apply (codes_nonempty _ _ Hin). pose proof (alphabet_nonempty k Hk). destruct (qam_alphabet k); [congruence|discriminate].
  - intros y. rewrite Hin. split.
    + intros [x [Hx ->]]. apply in_map_iff in Hx as [s [<- Hx]]. exists s. split; [assumption|apply Cabs_sqr].
    + intros [s [Hs' ->]]. exists (Cabs s). split; [now apply in_map|symmetry; apply Cabs_sqr].
Qed.
Lemma c54_rde k n : (1 <= k)%nat -> exists row,
  reshape_symbols None "rde" k n = Ok (Some (ArrC (repeat row n))) /\
  forall x i, exists r, rde_error x row i = Ok (err_cma r x) /\
    nearest_code (fun y => exists s, In s (qam_alphabet k) /\ y = Cnorm2 s) (Cnorm2 x) r.
Proof.
  intros Hk. destruct (radius_codes k Hk) as [codes [Hg [Hs [Hne Hin]]]]. exists (rde_row codes). split.
  - unfold reshape_symbols, generate_symbols_for_eq. cbn [String.eqb Ascii.eqb Bool.eqb]. rewrite Hg. reflexivity.
  - intros x i. destruct (rde_nearest codes x i Hs Hne) as [r [Hr [Ha Hb]]]. exists r. split; [assumption|].
    split; [now apply Hin|]. intros c' Hc'. apply Hb. now apply Hin.
Qed.

(** ** C54, modified radius directed *)
Definition swap_sym (k : nat) : Prop := (Nat.even k = true /\ (2 <= k)%nat) \/ (Nat.odd k = true /\ (5 <= k)%nat).
Lemma qam_swap k z : swap_sym k -> In z (cal_symbols_qam k) ->
  Z.Odd (snd z) /\ In (snd z, fst z) (cal_symbols_qam k).
Proof.
  intros [[He Hk]|[Ho Hk]] H; unfold cal_symbols_qam in *.
  - rewrite <- Nat.negb_even, He in *. cbn [negb] in *.
    assert (Hp : (0 < k / 2)%nat) by (apply Nat.div_str_pos; lia).
    rewrite square_qam_in in * by assumption. unfold square_point in *. cbn [fst snd]. tauto.
  - rewrite Ho in *. assert (Hp : (2 <= (k - 1) / 2)%nat) by (apply Nat.div_le_lower_bound; lia).
    rewrite cross_qam_in in * by assumption. unfold cross_point in *. cbn [fst snd]. tauto.
Qed.
Lemma alphabet_swap k s : swap_sym k -> In s (qam_alphabet k) -> Im s <> 0 /\ In (Im s, Re s) (qam_alphabet k).
Proof.
  intros Hk H. apply alphabet_in in H as [z [Hz ->]]. destruct (qam_swap k z Hk Hz) as [Ho Hin]. split.
  - unfold Im, Cscal, ZtoC. cbn [fst snd]. apply Rmult_integral_contrapositive. split.
    + assert (H1 : (1 <= k)%nat) by (destruct Hk as [[]|[]]; lia). pose proof (inv_scale_pos k H1). lra.
    + now apply IZR_odd_neq0.
  - apply alphabet_in. exists (snd z, fst z). split; [assumption|reflexivity].
Qed.
Lemma bcast_diag (l : list R) : bcast (fun a b => (a, b)) l l = Ok (map (fun a => (a, a)) l).
Proof.
  unfold bcast. rewrite Nat.eqb_refl. f_equal. induction l as [|a l IH]; [reflexivity|]. cbn [combine map fst snd]. now rewrite IH.
Qed.
Lemma complex_codes k : swap_sym k -> exists codes,
  generate_partition_codes_complex k = Ok (Some (map (fun a => (a, a)) (codes ++ midpoints codes))) /\
  StronglySorted Rlt codes /\ codes <> [] /\
  (forall y, In y codes <-> exists s, In s (qam_alphabet k) /\ y = Re s * Re s) /\
  (forall y, In y codes <-> exists s, In s (qam_alphabet k) /\ y = Im s * Im s).
Proof.
  intros Hk. assert (H1 : (1 <= k)%nat) by (destruct Hk as [[]|[]]; lia). unfold generate_partition_codes_complex.
  destruct (power_codes_some (map Re (qam_alphabet k))) as [cr [-> [Hsr Hr]]].
  { intros x Hx. apply in_map_iff in Hx as [s [<- Hx]]. now apply (alphabet_re_neq0 k). }
  destruct (power_codes_some (map Im (qam_alphabet k))) as [ci [-> [Hsi Hi]]].
  { intros x Hx. apply in_map_iff in Hx as [s [<- Hx]]. now apply (alphabet_swap k). }
  assert (Er : forall y, In y cr <-> exists s, In s (qam_alphabet k) /\ y = Re s * Re s).
  { intros y. rewrite Hr. split.
    - intros [x [Hx ->]]. apply in_map_iff in Hx as [s [<- Hx]]. now exists s.
    - intros [s [Hx ->]]. exists (Re s). split; [now apply in_map|reflexivity]. }
  assert (Ei : forall y, In y ci <-> exists s, In s (qam_alphabet k) /\ y = Im s * Im s).
  { intros y. rewrite Hi. split.
    - intros [x [Hx ->]]. apply in_map_iff in Hx as [s [<- Hx]]. now exists s.
    - intros [s [Hx ->]]. exists (Im s). split; [now apply in_map|reflexivity]. }
  assert (ci = cr).
  { apply sorted_unique; [assumption|assumption|]. intros y. rewrite Er, Ei. split; intros [s [Hx ->]];
    exists (Im s, Re s); (split; [now apply (alphabet_swap k)|reflexivity]). }
  subst ci. exists cr. rewrite !bcast_diag. cbn [bind]. rewrite map_app. repeat split; try assumption.
  - apply (codes_nonempty _ _ Hr). pose proof (alphabet_nonempty k H1). destruct (qam_alphabet k); [congruence|discriminate].
  - apply Er.
  - apply Er.
  - apply Ei.
  - apply Ei.
Qed.
Lemma map_diag fct l : (forall a, fct (a, a) = a) -> map (fct : C -> R) (map (fun a : R => (a, a)) l) = l.
Proof. intros H. rewrite map_map. rewrite <- (map_id l) at 2. apply map_ext. exact H. Qed.
Lemma c54_mrde k n : swap_sym k -> exists row,
  reshape_symbols None "mrde" k n = Ok (Some (ArrC (repeat row n))) /\
  forall x i, exists r, mrde_error x row i = Ok (err_mcma r x) /\
    nearest_code (fun y => exists s, In s (qam_alphabet k) /\ y = Re s * Re s) (Re x * Re x) (Re r) /\
    nearest_code (fun y => exists s, In s (qam_alphabet k) /\ y = Im s * Im s) (Im x * Im x) (Im r).
Proof.
  intros Hk. destruct (complex_codes k Hk) as [codes [Hg [Hs [Hne [Hr Hi]]]]].
  exists (map (fun a => (a, a)) (codes ++ midpoints codes)). split.
  - unfold reshape_symbols, generate_symbols_for_eq. cbn [String.eqb Ascii.eqb Bool.eqb]. rewrite Hg. reflexivity.
  - intros x i. unfold mrde_error. rewrite map_app, split_codes.
    + replace (Re x ^ 2) with (Re x * Re x) by ring. replace (Im x ^ 2) with (Im x * Im x) by ring.
      destruct (partition_value_nearest Re (map (fun a => (a, a)) codes) (map (fun a => (a, a)) (midpoints codes)) codes (Re x * Re x))
        as [r [-> [Ha Hb]]]; [now apply map_diag|now apply map_diag|assumption|assumption|].
      destruct (partition_value_nearest Im (map (fun a => (a, a)) codes) (map (fun a => (a, a)) (midpoints codes)) codes (Im x * Im x))
        as [q [-> [Hc Hd]]]; [now apply map_diag|now apply map_diag|assumption|assumption|].
      cbn [bind]. exists (r, q). split; [reflexivity|]. cbn [Re Im fst snd]. split.
      * split; [now apply Hr|]. intros c' H'. apply Hb. now apply Hr.
      * split; [now apply Hi|]. intros c' H'. apply Hd. now apply Hi.
    + rewrite !map_length. apply midpoints_length.
    + destruct codes; [congruence|discriminate].
Qed.

(** 8-QAM is a 4 x 2 rectangle: two codes for the real part, one for the imaginary part; the
    partitions are lost and the array is cut in the middle of the codes *)
Lemma alphabet3 : exists c, 0 < c /\ qam_alphabet 3 = map (fun z => Cscal c (ZtoC z))
  [(-3, -1); (-3, 1); (-1, -1); (-1, 1); (1, -1); (1, 1); (3, -1); (3, 1)]%Z.
Proof.
  exists (/ sqrt (cal_scaling_factor_qam 3)). split; [apply inv_scale_pos; lia|]. unfold qam_alphabet. f_equal.
Qed.
Lemma mrde8 : exists c, 0 < c /\
  (forall n, reshape_symbols None "mrde" 3 n = Ok (Some (ArrC (repeat [(c * c, c * c); (9 * (c * c), c * c)] n)))) /\
  (forall y, (exists s, In s (qam_alphabet 3) /\ y = Re s * Re s) <-> y = c * c \/ y = 9 * (c * c)).
Proof.
  destruct alphabet3 as [c [Hc Ha]]. exists c. split; [assumption|].
  assert (Hre : forall y, (exists s, In s (qam_alphabet 3) /\ y = Re s * Re s) <-> y = c * c \/ y = 9 * (c * c)).
  { intros y. rewrite Ha. cbn [map fst snd]. split.
    - intros [s [Hs ->]]. cbn [In] in Hs. repeat (destruct Hs as [<-|Hs]; [unfold Re, Cscal, ZtoC; cbn [fst snd]; (left; ring) || (right; ring)|]).
      contradiction.
    - intros [->| ->].
      + exists (Cscal c (ZtoC (1, 1)%Z)). split; [cbn [In]; tauto|]. unfold Re, Cscal, ZtoC; cbn [fst snd]. ring.
      + exists (Cscal c (ZtoC (3, 1)%Z)). split; [cbn [In]; tauto|]. unfold Re, Cscal, ZtoC; cbn [fst snd]. ring. }
  split; [|assumption]. intros n.
  assert (Hg : generate_partition_codes_complex 3 = Ok (Some [(c * c, c * c); (9 * (c * c), c * c)])).
  { unfold generate_partition_codes_complex.
    destruct (power_codes_some (map Re (qam_alphabet 3))) as [cr [-> [Hsr Hr]]].
    { intros x Hx. apply in_map_iff in Hx as [s [<- Hx]]. now apply (alphabet_re_neq0 3); [lia|]. }
    destruct (power_codes_some (map Im (qam_alphabet 3))) as [ci [-> [Hsi Hi]]].
    { intros x Hx. rewrite Ha in Hx. cbn [map fst snd] in Hx. cbn [In] in Hx.
      repeat (destruct Hx as [<-|Hx]; [unfold Im, Cscal, ZtoC; cbn [fst snd]; lra|]). contradiction. }
    assert (cr = [c * c; 9 * (c * c)]).
    { apply sorted_unique; [assumption| |].
      - repeat constructor. nra.
      - intros y. rewrite Hr. transitivity (y = c * c \/ y = 9 * (c * c)).
        + rewrite <- Hre. split.
          * intros [x [Hx ->]]. apply in_map_iff in Hx as [s [<- Hx]]. now exists s.
          * intros [s [Hx ->]]. exists (Re s). split; [now apply in_map|reflexivity].
        + cbn [In]. intuition congruence. }
    assert (ci = [c * c]).
    { apply sorted_unique; [assumption|repeat constructor|]. intros y. rewrite Hi, Ha. cbn [map fst snd In]. split.
      - intros [x [Hx ->]]. left. repeat (destruct Hx as [<-|Hx]; [unfold Im, Cscal, ZtoC; cbn [fst snd]; ring|]). contradiction.
      - intros [<-|[]]. exists (Im (Cscal c (ZtoC (1, 1)%Z))). split; [tauto|]. unfold Im, Cscal, ZtoC; cbn [fst snd]. ring. }
    subst cr ci. reflexivity. }
  unfold reshape_symbols, generate_symbols_for_eq. cbn [String.eqb Ascii.eqb Bool.eqb]. rewrite Hg. reflexivity.
Qed.
Lemma c54_mrde_8 : exists row, (forall n, reshape_symbols None "mrde" 3 n = Ok (Some (ArrC (repeat row n)))) /\
  (exists x i, mrde_error x row i = Err IndexError) /\
  (exists x i e, mrde_error x row i = Ok e /\ forall r,
     nearest_code (fun y => exists s, In s (qam_alphabet 3) /\ y = Re s * Re s) (Re x * Re x) (Re r) -> e <> err_mcma r x).
Proof.
  destruct mrde8 as [c [Hc [Hg Hre]]]. exists [(c * c, c * c); (9 * (c * c), c * c)]. split; [assumption|].
  assert (Hcc : 0 < c * c) by nra. split.
  - exists (4 * c, 0), 0%nat. unfold mrde_error, array_split2. cbn [length Nat.add Nat.div Nat.divmod fst firstn skipn].
    unfold partition_value. cbn [partition_index Re Im fst snd]. destruct (Rlt_dec _ _) as [H|H]; [reflexivity|]. exfalso. nra.
  - exists (5 / 2 * c, c), 0%nat. unfold mrde_error, array_split2. cbn [length Nat.add Nat.div Nat.divmod fst firstn skipn].
    unfold partition_value. cbn [partition_index Re Im fst snd].
    destruct (Rlt_dec (9 * (c * c)) ((5 / 2 * c) ^ 2)) as [H|_]; [exfalso; nra|].
    destruct (Rlt_dec (c * c) (c ^ 2)) as [H|_]; [exfalso; nra|].
    cbn [getn nth_error bind fst snd]. eexists. split; [reflexivity|]. intros r [Hin Hmin] He.
    apply (f_equal fst) in He. unfold err_mcma, Re, Im in He. cbn [fst snd] in He. unfold Re in Hin, Hmin. cbn [fst] in Hin, Hmin.
    apply Hre in Hin. destruct Hin as [Hin|Hin].
    + specialize (Hmin (9 * (c * c)) (proj2 (Hre _) (or_intror eq_refl))). rewrite Hin in Hmin. revert Hmin.
      unfold Rabs. repeat destruct (Rcase_abs _); nra.
    + rewrite Hin in He. assert (H0 : (9 * (c * c) - c * c) * c = 0) by nra. nra.
Qed.
Lemma c54_mrde_2 n : reshape_symbols None "mrde" 1 n = Ok None.
Proof.
  unfold reshape_symbols, generate_symbols_for_eq. cbn [String.eqb Ascii.eqb Bool.eqb].
  unfold generate_partition_codes_complex, power_codes.
  set (a := forallb _ (map Re _)). assert (Hb : forallb (fun x => if Req_EM_T x 0 then false else true) (map Im (qam_alphabet 1)) = false).
  { unfold qam_alphabet. change (cal_symbols_qam 1) with [(-1, 0); (1, 0)]%Z. cbn [map forallb]. unfold Im, Cscal, ZtoC. cbn [fst snd].
    destruct (Req_EM_T _ 0) as [_|H]; [reflexivity|]. exfalso. apply H. ring. }
  rewrite Hb. destruct a; reflexivity.
Qed.
