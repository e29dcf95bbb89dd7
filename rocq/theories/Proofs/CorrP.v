From Coq Require Import List ZArith Bool Lia Reals Lra Arith ZifyBool ZifyNat.
From Verif Require Import Common.Py Common.ListX Common.Cplx Common.SumX Model.Decision Model.Sync Spec.Seq
  Proofs.DecisionP.
Import ListNotations.
Local Open Scope R_scope.

Lemma ext_out x i : ~ (0 <= i < Z.of_nat (length x))%Z -> ext x i = C0.
Proof.
  intros H. unfold ext. destruct (Z.leb_spec 0 i); [|reflexivity]. apply nth_overflow. lia.
Qed.
Lemma ext_in x i s : nth_error x i = Some s -> ext x (Z.of_nat i) = s.
Proof.
  intros H. unfold ext. destruct (Z.leb_spec 0 (Z.of_nat i)); [|lia]. rewrite Nat2Z.id. now apply nth_error_nth.
Qed.
Lemma ext_nth x i : ext x (Z.of_nat i) = nth i x C0.
Proof. unfold ext. destruct (Z.leb_spec 0 (Z.of_nat i)); [|lia]. now rewrite Nat2Z.id. Qed.
Lemma ext_map f x i : f C0 = C0 -> ext (map f x) i = f (ext x i).
Proof.
  intros Hf. unfold ext. destruct (0 <=? i)%Z; [|now rewrite Hf].
  rewrite <- Hf at 1. apply map_nth.
Qed.

Lemma conv_corr x y m : conv_at x (rev (map Cconj y)) m = corr x y (Z.of_nat m - (Z.of_nat (length y) - 1)).
Proof.
  set (d := (Z.of_nat m - (Z.of_nat (length y) - 1))%Z).
  assert (E1 : conv_at x (rev (map Cconj y)) m
     = csum (length x) (fun n => (ext x (Z.of_nat n) * Cconj (ext y (Z.of_nat n - d)))%C)).
  { unfold conv_at. fold (csum (length x) (fun n => (nth n x C0 * (if (n <=? m)%nat then nth (m - n) (rev (map Cconj y)) C0 else C0))%C)).
    apply csum_ext. intros n Hn. rewrite ext_nth. f_equal.
    destruct (Nat.leb_spec n m) as [H|H].
    - destruct (Nat.lt_ge_cases (m - n) (length y)) as [H1|H1].
      + rewrite rev_nth by (rewrite map_length; assumption). rewrite map_length.
        replace C0 with (Cconj C0) by cring. rewrite map_nth. f_equal.
        rewrite <- ext_nth. f_equal. unfold d. lia.
      + rewrite nth_overflow by (rewrite rev_length, map_length; assumption).
        rewrite ext_out by (unfold d; lia). cring.
    - rewrite ext_out by (unfold d; lia). cring. }
  rewrite E1. unfold corr.
  transitivity (csum (length x) (fun n => csum (length y) (fun k =>
     if (Z.of_nat k =? Z.of_nat n - d)%Z then (ext x (Z.of_nat n) * Cconj (ext y (Z.of_nat k)))%C else C0))).
  - apply csum_ext. intros n Hn.
    destruct (Z_lt_le_dec (Z.of_nat n - d) 0) as [H|H];
      [|destruct (Z_lt_le_dec (Z.of_nat n - d) (Z.of_nat (length y))) as [H1|H1]].
    + rewrite (csum_kron_out (length y) (fun k => (ext x (Z.of_nat n) * Cconj (ext y (Z.of_nat k)))%C)) by lia.
      rewrite (ext_out y) by lia. cring.
    + rewrite (csum_kron (length y) (fun k => (ext x (Z.of_nat n) * Cconj (ext y (Z.of_nat k)))%C)) by lia.
      now rewrite Z2Nat.id by lia.
    + rewrite (csum_kron_out (length y) (fun k => (ext x (Z.of_nat n) * Cconj (ext y (Z.of_nat k)))%C)) by lia.
      rewrite (ext_out y) by lia. cring.
  - rewrite csum_swap. apply csum_ext. intros k Hk.
    rewrite (csum_ext (length x) _ (fun n => if (Z.of_nat n =? d + Z.of_nat k)%Z then (ext x (Z.of_nat n) * Cconj (ext y (Z.of_nat k)))%C else C0)).
    2:{ intros n _. destruct (Z.eqb_spec (Z.of_nat k) (Z.of_nat n - d)), (Z.eqb_spec (Z.of_nat n) (d + Z.of_nat k)); try reflexivity; lia. }
    destruct (Z_lt_le_dec (d + Z.of_nat k) 0) as [H|H];
      [|destruct (Z_lt_le_dec (d + Z.of_nat k) (Z.of_nat (length x))) as [H1|H1]].
    + rewrite (csum_kron_out (length x) (fun n => (ext x (Z.of_nat n) * Cconj (ext y (Z.of_nat k)))%C)) by lia.
      rewrite (ext_out x) by lia. cring.
    + rewrite (csum_kron (length x) (fun n => (ext x (Z.of_nat n) * Cconj (ext y (Z.of_nat k)))%C)) by lia.
      now rewrite Z2Nat.id by lia.
    + rewrite (csum_kron_out (length x) (fun n => (ext x (Z.of_nat n) * Cconj (ext y (Z.of_nat k)))%C)) by lia.
      rewrite (ext_out x) by lia. cring.
Qed.


Lemma corr_out x y d : ~ lag x y d -> corr x y d = C0.
Proof.
  intros H. apply csum_zero. intros k Hk. rewrite (ext_out x).
  - cring.
  - unfold lag in H. lia.
Qed.

Definition acs (x y : list C) : list C :=
  map (fun m => corr x y (Z.of_nat m - (Z.of_nat (length y) - 1))) (seq 0 (length x + length y - 1)).

Lemma convolve_acs x y : x <> [] -> y <> [] -> convolve_full x (rev (map Cconj y)) = acs x y.
Proof.
  intros Hx Hy. unfold convolve_full. destruct x as [|x0 x]; [congruence|].
  destruct (rev (map Cconj y)) as [|r0 r] eqn:Er.
  - apply (f_equal (@length C)) in Er. rewrite rev_length, map_length in Er. destruct y; [congruence|discriminate].
  - rewrite <- Er. unfold acs. rewrite rev_length, map_length. apply map_ext. intros m. apply conv_corr.
Qed.

Lemma argmax_spec l i : argmax l = Ok i ->
  exists v, nth_error l i = Some v /\ (forall j w, nth_error l j = Some w -> w <= v) /\
    (forall j w, (j < i)%nat -> nth_error l j = Some w -> w < v).
Proof.
  unfold argmax. intros H. destruct (argmin_spec _ _ H) as (d & H1 & H2 & H3).
  rewrite nth_error_map in H1. destruct (nth_error l i) as [v|] eqn:E; [|discriminate]. cbn in H1. injection H1 as <-.
  exists v. split; [reflexivity|]. split.
  - intros j w Hw. specialize (H2 j (- w)). rewrite nth_error_map, Hw in H2. specialize (H2 eq_refl). lra.
  - intros j w Hj Hw. specialize (H3 j (- w) Hj). rewrite nth_error_map, Hw in H3. specialize (H3 eq_refl). lra.
Qed.

Lemma acs_nth x y d : x <> [] -> y <> [] -> lag x y d -> nth_error (acs x y) (Z.to_nat (d + (Z.of_nat (length y) - 1))) = Some (corr x y d).
Proof.
  intros Hx Hy H. unfold acs, lag in *.
  assert (length x <> 0%nat) by (destruct x; [congruence|discriminate]).
  assert (length y <> 0%nat) by (destruct y; [congruence|discriminate]).
  rewrite nth_error_map_seq by lia. f_equal. f_equal. lia.
Qed.

Lemma find_sequence_offset_spec x y : x <> [] -> y <> [] ->
  exists ix, find_sequence_offset x y = Ok (ix, acs x y) /\ lag x y ix /\
    (forall d, lag x y d -> Cabs (corr x y d) <= Cabs (corr x y ix)) /\
    (forall d, lag x y d -> (d < ix)%Z -> Cabs (corr x y d) < Cabs (corr x y ix)).
Proof.
  intros Hx Hy. unfold find_sequence_offset. rewrite convolve_acs by assumption.
  assert (Lx : length x <> 0%nat) by (destruct x; [congruence|discriminate]).
  assert (Ly : length y <> 0%nat) by (destruct y; [congruence|discriminate]).
  assert (Hne : map Ropp (map Cabs (acs x y)) <> []).
  { intros E. apply (f_equal (@length R)) in E. unfold acs in E. rewrite !map_length, seq_length in E. cbn in E. lia. }
  destruct (argmin_ok _ Hne) as [i Hi]. fold (argmax (map Cabs (acs x y))) in Hi. rewrite Hi. cbn [bind].
  eexists. split; [reflexivity|].
  destruct (argmax_spec _ _ Hi) as (v & Hv & Hmax & Hfirst).
  assert (Hl : (i < length x + length y - 1)%nat).
  { apply nth_error_Some_lt in Hv. unfold acs in Hv. rewrite !map_length, seq_length in Hv. exact Hv. }
  unfold acs in Hv. rewrite map_map, nth_error_map_seq in Hv by exact Hl. cbn [Nat.add] in Hv. injection Hv as Hv.
  split; [unfold lag; lia|]. split.
  - intros d Hd. rewrite Hv. apply (Hmax (Z.to_nat (d + (Z.of_nat (length y) - 1)))).
    rewrite nth_error_map, acs_nth by assumption. reflexivity.
  - intros d Hd Hlt. rewrite Hv. apply (Hfirst (Z.to_nat (d + (Z.of_nat (length y) - 1)))); [unfold lag in *; lia|].
    rewrite nth_error_map, acs_nth by assumption. reflexivity.
Qed.

Lemma find_sequence_offset_empty x y : x = [] \/ y = [] -> find_sequence_offset x y = Err ValueError.
Proof.
  intros [->| ->]; [reflexivity|]. unfold find_sequence_offset. cbn. destruct x; reflexivity.
Qed.

(** ** where the correlation is largest *)
Lemma corr_cdot x y d : corr x y d = cdot (length y) (fun k => ext x (d + Z.of_nat k)) (fun k => ext y (Z.of_nat k)).
Proof. reflexivity. Qed.
Lemma energy_y y : energy (length y) (fun k => ext y (Z.of_nat k)) = seq_energy y.
Proof. reflexivity. Qed.


Lemma seq_energy_pos y : y <> [] -> all_nonzero y -> 0 < seq_energy y.
Proof.
  intros Hy Hnz. pose proof (energy_nonneg (length y) (fun k => ext y (Z.of_nat k))) as H0.
  destruct (Req_dec (seq_energy y) 0) as [E|E]; [|rewrite energy_y in H0; lra].
  exfalso. destruct y as [|s y]; [congruence|].
  assert (K : Cnorm2 (ext (s :: y) (Z.of_nat 0)) = 0).
  { apply (rsum_zero_inv (length (s :: y)) (fun k => Cnorm2 (ext (s :: y) (Z.of_nat k)))); [intros; apply Cnorm2_nonneg|exact E|cbn; lia]. }
  apply Cnorm2_zero in K. apply (Hnz s); [now left|]. exact K.
Qed.

Lemma corr_bound x y d : energy_at x y d <= seq_energy y -> Cnorm2 (corr x y d) <= seq_energy y * seq_energy y.
Proof.
  intros He. rewrite corr_cdot. eapply Rle_trans; [apply cauchy_schwarz|]. rewrite energy_y.
  apply Rmult_le_compat_r; [apply energy_nonneg|exact He].
Qed.

Lemma corr_max_occurs x y d : y <> [] -> all_nonzero y -> energy_at x y d <= seq_energy y ->
  Cnorm2 (corr x y d) = seq_energy y * seq_energy y ->
  exists u, Cnorm2 u = 1 /\ occurs_at x y d u /\ corr x y d = Cscal (seq_energy y) u.
Proof.
  intros Hy Hnz He E.
  pose proof (seq_energy_pos y Hy Hnz) as Hpos.
  assert (Ea : energy_at x y d = seq_energy y).
  { apply Rle_antisym; [exact He|].
    pose proof (cauchy_schwarz (length y) (fun k => ext x (d + Z.of_nat k)) (fun k => ext y (Z.of_nat k))) as CS.
    rewrite <- corr_cdot, E, energy_y in CS.
    change (energy (length y) (fun k => ext x (d + Z.of_nat k))) with (energy_at x y d) in CS.
    apply Rmult_le_reg_r with (seq_energy y); assumption. }
  set (u := Cscal (/ seq_energy y) (corr x y d)).
  assert (Hu : Cnorm2 u = 1).
  { unfold u. rewrite Cnorm2_scal, E. field. lra. }
  assert (Hk : forall k, (k < length y)%nat -> ext x (d + Z.of_nat k) = (u * ext y (Z.of_nat k))%C).
  { intros k Hk. apply (cauchy_schwarz_eq (length y) (fun k => ext x (d + Z.of_nat k)) (fun k => ext y (Z.of_nat k))); [exact Hpos| |exact Hk].
    rewrite <- corr_cdot, energy_y, E.
    change (energy (length y) (fun k => ext x (d + Z.of_nat k))) with (energy_at x y d). now rewrite Ea. }
  exists u. split; [exact Hu|]. split.
  - assert (Hin : forall k, (k < length y)%nat -> (0 <= d + Z.of_nat k < Z.of_nat (length x))%Z).
    { intros k Hlt. destruct (Z_lt_le_dec (d + Z.of_nat k) 0) as [H|H];
        [|destruct (Z_lt_le_dec (d + Z.of_nat k) (Z.of_nat (length x))) as [H1|H1]; [lia|]].
      all: exfalso; specialize (Hk k Hlt); rewrite ext_out in Hk by lia.
      all: destruct (nth_error_lt_Some y k Hlt) as [s Es]; rewrite (ext_in y k s Es) in Hk.
      all: apply (Hnz s (nth_error_In _ _ Es)).
      all: apply Cnorm2_zero; pose proof (f_equal Cnorm2 Hk) as F; rewrite Cnorm2_mul, Hu, Cnorm2_0 in F; lra. }
    split; [|exact Hk].
    assert (length y <> 0%nat) by (destruct y; [congruence|discriminate]).
    pose proof (Hin 0%nat ltac:(lia)). pose proof (Hin (length y - 1)%nat ltac:(lia)). lia.
  - unfold u. apply C_eq; unfold Cscal; cbn [fst snd]; field; lra.
Qed.

Lemma occurs_corr x y p u : occurs_at x y p u -> corr x y p = Cscal (seq_energy y) u.
Proof.
  intros [_ H]. unfold corr, seq_energy, energy_at.
  rewrite (csum_ext _ _ (fun k => (u * RtoC (Cnorm2 (ext y (Z.of_nat k))))%C)).
  - rewrite csum_scal, csum_RtoC. cbn [Z.add]. cring.
  - intros k Hk. rewrite H by assumption.
    replace (u * ext y (Z.of_nat k) * Cconj (ext y (Z.of_nat k)))%C with (u * (ext y (Z.of_nat k) * Cconj (ext y (Z.of_nat k))))%C by ring.
    now rewrite Cmul_conj.
Qed.

Lemma occurs_lag x y p u : y <> [] -> occurs_at x y p u -> lag x y p.
Proof. intros Hy [H _]. assert (length y <> 0%nat) by (destruct y; [congruence|discriminate]). unfold lag. lia. Qed.

Lemma Cabs_le_sqr z e : 0 <= e -> Cnorm2 z <= e * e -> Cabs z <= e.
Proof.
  intros He H. unfold Cabs. rewrite <- (sqrt_square e) by assumption. apply sqrt_le_1; [apply Cnorm2_nonneg|nra|assumption].
Qed.
Lemma Cabs_scal_unit e u : 0 <= e -> Cnorm2 u = 1 -> Cabs (Cscal e u) = e.
Proof. intros He Hu. unfold Cabs. rewrite Cnorm2_scal, Hu, Rmult_1_r. now apply sqrt_square. Qed.

(** the lag found is one where y occurs *)
Lemma find_offset_occurs x y p u : x <> [] -> y <> [] -> all_nonzero y ->
  (forall d, lag x y d -> energy_at x y d <= seq_energy y) ->
  occurs_at x y p u -> Cnorm2 u = 1 ->
  exists ix v, find_sequence_offset x y = Ok (ix, acs x y) /\ occurs_at x y ix v /\ Cnorm2 v = 1 /\
    lag x y ix /\ Cabs (corr x y ix) = seq_energy y /\ (ix <= p)%Z.
Proof.
  intros Hx Hy Hnz He Hp Hu.
  destruct (find_sequence_offset_spec x y Hx Hy) as (ix & E & Hl & Hmax & Hfirst).
  pose proof (seq_energy_pos y Hy Hnz) as Hpos.
  pose proof (Hmax p (occurs_lag x y p u Hy Hp)) as Hge.
  rewrite (occurs_corr x y p u Hp), Cabs_scal_unit in Hge by (assumption || lra).
  pose proof (corr_bound x y ix (He ix Hl)) as Hb.
  assert (Ei : Cabs (corr x y ix) = seq_energy y).
  { apply Rle_antisym; [apply Cabs_le_sqr; [lra|exact Hb]|exact Hge]. }
  destruct (corr_max_occurs x y ix Hy Hnz (He ix Hl)) as (v & Hv & Ho & _).
  { rewrite <- Cabs_sqr, Ei. reflexivity. }
  exists ix, v. repeat split; try assumption; try apply Ho; try apply Hl.
  destruct (Z_le_gt_dec ix p) as [H|H]; [assumption|]. exfalso.
  specialize (Hfirst p (occurs_lag x y p u Hy Hp) ltac:(lia)).
  rewrite (occurs_corr x y p u Hp), Cabs_scal_unit in Hfirst by (assumption || lra). lra.
Qed.

Lemma c14 x y p u : x <> [] -> y <> [] -> all_nonzero y ->
  (forall d, lag x y d -> energy_at x y d <= seq_energy y) ->
  occurs_at x y p u -> Cnorm2 u = 1 ->
  (forall q v, Cnorm2 v = 1 -> occurs_at x y q v -> q = p) ->
  exists ac, find_sequence_offset x y = Ok (p, ac).
Proof.
  intros Hx Hy Hnz He Hp Hu Huniq.
  destruct (find_offset_occurs x y p u Hx Hy Hnz He Hp Hu) as (ix & v & E & Ho & Hv & _).
  rewrite (Huniq ix v Hv Ho) in E. eexists; exact E.
Qed.

(** equal moduli satisfy the energy condition *)
Lemma const_modulus_energy x y r d : 0 < r -> (forall s, In s x -> Cnorm2 s = r) -> (forall s, In s y -> Cnorm2 s = r) ->
  all_nonzero y /\ energy_at x y d <= seq_energy y.
Proof.
  intros Hr Hx Hy. split.
  - intros s Hs ->. specialize (Hy _ Hs). rewrite Cnorm2_0 in Hy. lra.
  - unfold seq_energy, energy_at. apply rsum_le. intros k Hk.
    destruct (nth_error_lt_Some y k Hk) as [s Es].
    cbn [Z.add]. rewrite (ext_in y k s Es), (Hy s (nth_error_In _ _ Es)).
    destruct (Z_lt_le_dec (d + Z.of_nat k) 0) as [H|H];
        [|destruct (Z_lt_le_dec (d + Z.of_nat k) (Z.of_nat (length x))) as [H1|H1]].
    + rewrite ext_out by lia. rewrite Cnorm2_0. lra.
    + destruct (nth_error_lt_Some x (Z.to_nat (d + Z.of_nat k)) ltac:(lia)) as [t Et].
      replace (d + Z.of_nat k)%Z with (Z.of_nat (Z.to_nat (d + Z.of_nat k))) by lia.
      rewrite (ext_in x _ t Et), (Hx t (nth_error_In _ _ Et)). lra.
    + rewrite ext_out by lia. rewrite Cnorm2_0. lra.
Qed.

(** ** the four rotations *)
Lemma Cpow_quarter i : (i < 4)%nat -> Cpow Ci i = quarter i.
Proof. intros H. destruct i as [|[|[|[|i]]]]; try lia; cbn [Cpow quarter]; apply C_eq; unfold Cmul, C1, Ci; cbn [fst snd]; ring. Qed.
Lemma quarter_unit i : Cnorm2 (quarter i) = 1.
Proof. destruct i as [|[|[|i]]]; unfold Cnorm2, quarter, C1, Ci; cbn [fst snd]; ring. Qed.

Lemma corr_turned x y q d : corr x (turned q y) d = (Cconj (quarter q) * corr x y d)%C.
Proof.
  unfold corr, turned. rewrite map_length, <- csum_scal. apply csum_ext. intros k _.
  rewrite ext_map by ring. rewrite Cconj_mul. ring.
Qed.
Lemma turned_length q y : length (turned q y) = length y.
Proof. apply map_length. Qed.
Lemma turned_ne q y : y <> [] -> turned q y <> [].
Proof. destruct y; [congruence|discriminate]. Qed.
Lemma Cabs_corr_turned x y q d : Cabs (corr x (turned q y) d) = Cabs (corr x y d).
Proof.
  rewrite corr_turned, Cabs_mul.
  replace (Cabs (Cconj (quarter q))) with 1; [ring|].
  unfold Cabs. rewrite Cnorm2_conj, quarter_unit. now rewrite sqrt_1.
Qed.


(** the lag does not depend on the rotation *)
Lemma find_turned x y : x <> [] -> y <> [] ->
  exists ix, lag x y ix /\
    (forall d, lag x y d -> Cabs (corr x y d) <= Cabs (corr x y ix)) /\
    (forall d, lag x y d -> (d < ix)%Z -> Cabs (corr x y d) < Cabs (corr x y ix)) /\
    find_sequence_offset x y = Ok (ix, acs x y) /\
    forall q, find_sequence_offset x (turned q y) = Ok (ix, acs x (turned q y)).
Proof.
  intros Hx Hy. destruct (find_sequence_offset_spec x y Hx Hy) as (ix & E & Hl & Hm & Hf).
  exists ix. split; [exact Hl|]. split; [exact Hm|]. split; [exact Hf|]. split; [exact E|]. intros q.
  destruct (find_sequence_offset_spec x (turned q y) Hx (turned_ne q y Hy)) as (ix' & E' & Hl' & Hm' & Hf').
  assert (HL : forall d, lag x (turned q y) d <-> lag x y d) by (intros d; unfold lag; rewrite turned_length; tauto).
  apply HL in Hl'.
  destruct (Z.lt_trichotomy ix ix') as [H|[H|H]].
  - exfalso. specialize (Hf' ix ltac:(now apply HL) H). rewrite !Cabs_corr_turned in Hf'. specialize (Hm ix' Hl'). lra.
  - subst ix'. exact E'.
  - exfalso. specialize (Hf ix' Hl' H). specialize (Hm' ix ltac:(now apply HL)). rewrite !Cabs_corr_turned in Hm'. lra.
Qed.

Lemma fold_Rmax_spec l a : a <= fold_left Rmax l a /\ (forall b, In b l -> b <= fold_left Rmax l a) /\
  (fold_left Rmax l a = a \/ In (fold_left Rmax l a) l).
Proof.
  revert a. induction l as [|b l IH]; intros a; cbn [fold_left].
  - repeat split; [lra|intros b []|now left].
  - destruct (IH (Rmax a b)) as (H1 & H2 & H3). split; [|split].
    + eapply Rle_trans; [apply Rmax_l|exact H1].
    + intros c [<-|Hc]; [eapply Rle_trans; [apply Rmax_r|exact H1]|now apply H2].
    + destruct H3 as [H3|H3]; [|right; now right]. rewrite H3. unfold Rmax. destruct (Rle_dec a b); [right; now left|now left].
Qed.
Lemma rmax_spec l : l <> [] -> exists m, rmax l = Ok m /\ In m l /\ forall b, In b l -> b <= m.
Proof.
  destruct l as [|a l]; [congruence|]. intros _. cbn [rmax]. eexists. split; [reflexivity|].
  destruct (fold_Rmax_spec l a) as (H1 & H2 & H3). split.
  - destruct H3 as [-> | H3]; [now left|now right].
  - intros b [<-|Hb]; [exact H1|now apply H2].
Qed.

Lemma acs_max x y : x <> [] -> y <> [] -> exists m, rmax (map fst (acs x y)) = Ok m /\
  (exists d, lag x y d /\ m = fst (corr x y d)) /\ (forall d, lag x y d -> fst (corr x y d) <= m).
Proof.
  intros Hx Hy.
  assert (Lx : length x <> 0%nat) by (destruct x; [congruence|discriminate]).
  assert (Ly : length y <> 0%nat) by (destruct y; [congruence|discriminate]).
  destruct (rmax_spec (map fst (acs x y))) as (m & E & Hin & Hm).
  { intros E. apply (f_equal (@length R)) in E. unfold acs in E. rewrite !map_length, seq_length in E. cbn in E. lia. }
  exists m. split; [exact E|]. split.
  - apply in_map_iff in Hin as (c & <- & Hc). unfold acs in Hc. apply in_map_iff in Hc as (k & <- & Hk).
    apply in_seq in Hk. eexists. split; [|reflexivity]. unfold lag. lia.
  - intros d Hd. apply Hm. apply in_map. eapply nth_error_In. apply acs_nth; assumption.
Qed.

Lemma turned_map y i : (i < 4)%nat -> map (fun s => (s * Cpow Ci i)%C) y = turned i y.
Proof. intros H. unfold turned. apply map_ext. intros s. rewrite Cpow_quarter by assumption. ring. Qed.

Lemma offset_loop_spec x y ix (m : nat -> R) :
  (forall q, find_sequence_offset x (turned q y) = Ok (ix, acs x (turned q y))) ->
  (forall q, rmax (map fst (acs x (turned q y))) = Ok (m q)) ->
  forall rots best acm, Forall (fun i => (i < 4)%nat) rots ->
  exists best' acm', offset_loop x y rots best acm = Ok (best', acm') /\
    acm <= acm' /\ (forall i, In i rots -> m i <= acm') /\
    ((best' = best /\ acm' = acm) \/ (exists i, In i rots /\ best' = Some (ix, i) /\ acm' = m i /\ acm < acm')).
Proof.
  intros Hf Hm. induction rots as [|i rots IH]; intros best acm Hr.
  - exists best, acm. cbn. repeat split; try lra; [intros i []|left; auto].
  - inversion Hr as [|? ? Hi Hr']; subst. cbn [offset_loop]. rewrite turned_map by assumption.
    rewrite Hf. cbn [bind snd fst]. rewrite Hm. cbn [bind].
    destruct (Rlt_dec acm (m i)) as [Hlt|Hge].
    + destruct (IH (Some (ix, i)) (m i) Hr') as (b & a & E & H1 & H2 & H3). exists b, a. split; [exact E|].
      split; [lra|]. split.
      * intros j [<-|Hj]; [exact H1|now apply H2].
      * right. destruct H3 as [[-> ->]|(j & Hj & -> & -> & H4)].
        { exists i. repeat split; try (now left); lra. }
        { exists j. repeat split; try (now right); lra. }
    + destruct (IH best acm Hr') as (b & a & E & H1 & H2 & H3). exists b, a. split; [exact E|].
      split; [exact H1|]. split.
      * intros j [<-|Hj]; [lra|now apply H2].
      * destruct H3 as [H3|(j & Hj & H3)]; [now left|]. right. exists j. split; [now right|exact H3].
Qed.

Lemma quarter_real_pos z : z <> C0 -> exists q, (q < 4)%nat /\ 0 < fst (Cconj (quarter q) * z)%C.
Proof.
  intros Hz. destruct z as [a b].
  destruct (Rtotal_order a 0) as [H|[H|H]].
  - exists 2%nat. split; [lia|]. unfold quarter, Cconj, Cmul. cbn [fst snd]. lra.
  - destruct (Rtotal_order b 0) as [K|[K|K]].
    + exists 3%nat. split; [lia|]. unfold quarter, Cconj, Cmul. cbn [fst snd]. lra.
    + exfalso. apply Hz. subst. reflexivity.
    + exists 1%nat. split; [lia|]. unfold quarter, Ci, Cconj, Cmul. cbn [fst snd]. lra.
  - exists 0%nat. split; [lia|]. unfold quarter, C1, Cconj, Cmul. cbn [fst snd]. lra.
Qed.

Lemma quarter_choice z : exists q, (q < 4)%nat /\ 0 <= fst (Cconj (quarter q) * z)%C.
Proof.
  destruct (Ceq_dec z C0) as [->|H].
  - exists 0%nat. split; [lia|]. unfold quarter, C1, C0, Cconj, Cmul. cbn [fst snd]. lra.
  - destruct (quarter_real_pos z H) as (q & H1 & H2). exists q. split; [assumption|lra].
Qed.

Lemma c15 x y : x <> [] -> y <> [] ->
  ((forall d, corr x y d = C0) -> find_sequence_offset_complex x y = Err UnboundLocalError) /\
  (forall d0, corr x y d0 <> C0 ->
   exists ix ii acm, find_sequence_offset_complex x y = Ok (ix, turned ii y, ii, acm) /\
     (ii < 4)%nat /\ lag x y ix /\ 0 < acm /\
     (forall d, Cabs (corr x y d) <= Cabs (corr x y ix)) /\
     (exists d, acm = fst (corr x (turned ii y) d)) /\
     (forall q d, (q < 4)%nat -> fst (corr x (turned q y) d) <= acm)).
Proof.
  intros Hx Hy. destruct (find_turned x y Hx Hy) as (ix & Hl & Hm & Hf & E & Et).
  assert (Hms : exists m : nat -> R, forall q, rmax (map fst (acs x (turned q y))) = Ok (m q)).
  { exists (fun q => match rmax (map fst (acs x (turned q y))) with Ok m => m | Err _ => 0 end).
    intros q. destruct (acs_max x (turned q y) Hx (turned_ne q y Hy)) as (m & -> & _). reflexivity. }
  destruct Hms as [m Hms].
  assert (Hlag : forall q d, lag x (turned q y) d <-> lag x y d) by (intros q d; unfold lag; rewrite turned_length; tauto).
  assert (Hmq : forall q, (exists d, lag x y d /\ m q = fst (corr x (turned q y) d)) /\
                          (forall d, lag x y d -> fst (corr x (turned q y) d) <= m q)).
  { intros q. destruct (acs_max x (turned q y) Hx (turned_ne q y Hy)) as (m' & E' & (d & Hd & Ed) & Hle).
    rewrite Hms in E'. injection E' as <-. split.
    - exists d. split; [now apply (Hlag q)|exact Ed].
    - intros d' Hd'. apply Hle. now apply (Hlag q). }
  destruct (offset_loop_spec x y ix m Et Hms [0; 1; 2; 3]%nat None 0) as (b & a & El & Ha & Hall & Hcase).
  { repeat constructor; lia. }
  unfold find_sequence_offset_complex. rewrite El. cbn [bind]. split.
  - intros Hz. destruct Hcase as [[-> ->]|(i & Hi & -> & Ei & Hpos)]; [reflexivity|].
    exfalso. destruct (proj1 (Hmq i)) as (d & _ & Ed). rewrite corr_turned, Hz in Ed.
    replace (fst (Cconj (quarter i) * C0)%C) with 0 in Ed by (unfold Cmul, C0; cbn; ring). lra.
  - intros d0 Hd0.
    assert (Hld : lag x y d0).
    { destruct (Z_le_dec (- (Z.of_nat (length y) - 1)) d0) as [H1|H1];
      [destruct (Z_le_dec d0 (Z.of_nat (length x) - 1)) as [H2|H2]|].
      - split; assumption.
      - exfalso. apply Hd0, corr_out. unfold lag. lia.
      - exfalso. apply Hd0, corr_out. unfold lag. lia. }
    destruct (quarter_real_pos _ Hd0) as (q0 & Hq0 & Hp0).
    assert (Hin : forall q, (q < 4)%nat -> In q [0; 1; 2; 3]%nat) by (intros q Hq; cbn; lia).
    assert (Hpos : 0 < a).
    { pose proof (proj2 (Hmq q0) d0 Hld) as H1. rewrite corr_turned in H1.
      pose proof (Hall q0 (Hin q0 Hq0)). lra. }
    destruct Hcase as [[-> ->]|(i & Hi & -> & Ei & _)]; [lra|].
    assert (Hi4 : (i < 4)%nat) by (cbn in Hi; lia).
    exists ix, i, a. rewrite turned_map by assumption. split; [reflexivity|].
    split; [exact Hi4|]. split; [exact Hl|]. split; [exact Hpos|]. split; [|split].
    + intros d. destruct (Z_le_dec (- (Z.of_nat (length y) - 1)) d) as [H1|H1];
      [destruct (Z_le_dec d (Z.of_nat (length x) - 1)) as [H2|H2]; [apply Hm; split; assumption|]|].
      all: rewrite (corr_out x y d) by (unfold lag; lia); rewrite (proj2 (Cabs_0 C0) eq_refl); apply Cabs_nonneg.
    + destruct (proj1 (Hmq i)) as (d & _ & Ed). exists d. rewrite Ei. exact Ed.
    + intros q d Hq.
      assert (Hcases : lag x y d \/ ~ lag x y d) by (unfold lag; lia).
      destruct Hcases as [H|H].
      * eapply Rle_trans; [apply (proj2 (Hmq q) d H)|]. apply Hall. now apply Hin.
      * rewrite corr_turned, corr_out by assumption. unfold Cmul, C0; cbn [fst snd]. lra.
Qed.

Lemma c15_empty x y : x = [] \/ y = [] -> find_sequence_offset_complex x y = Err ValueError.
Proof.
  intros H. unfold find_sequence_offset_complex. cbn [offset_loop].
  rewrite find_sequence_offset_empty; [reflexivity|]. destruct H as [->| ->]; [now left|now right].
Qed.
