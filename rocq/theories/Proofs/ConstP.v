(** Lemmas about constellations. *)
From Coq Require Import List ZArith NArith Bool Lia Permutation FinFun ZifyBool ZifyNat ZifyN Reals Lra Psatz Arith.
From Verif Require Import Common.Py Common.ListX Common.Cplx Model.Gray Model.Constellation
  Spec.Bits Spec.Geometry Proofs.GrayP.
Import ListNotations.
Ltac Zify.zify_post_hook ::= Z.div_mod_to_equations.

(** ** PAM levels *)
Lemma pow2_Z h : Z.of_nat (2 ^ h) = (2 ^ Z.of_nat h)%Z.
Proof.
  induction h as [|h IH]; [reflexivity|].
  rewrite Nat.pow_succ_r', Nat2Z.inj_mul, IH, (Nat2Z.inj_succ h), Z.pow_succ_r by lia; reflexivity.
Qed.
Lemma pow2_pos h : 0 < 2 ^ h.
Proof. apply Nat.neq_0_lt_0, Nat.pow_nonzero; lia. Qed.
Lemma pow2_even h : 0 < h -> exists q, 2 ^ h = 2 * q /\ 0 < q.
Proof. intros; exists (2 ^ (h - 1)); split; [|apply pow2_pos]. rewrite <- Nat.pow_succ_r'; f_equal; lia. Qed.

Lemma pam_level_odd h i : 0 < h -> Z.Odd (pam_level (2 ^ h) i).
Proof.
  intros Hh; destruct (pow2_even h Hh) as [q [E _]]. unfold pam_level; rewrite E.
  exists (Z.of_nat i - Z.of_nat q)%Z; lia.
Qed.
Lemma pam_level_bound n i : i < n -> (Z.abs (pam_level n i) < Z.of_nat n)%Z.
Proof. unfold pam_level; lia. Qed.
Lemma pam_level_inj n i j : pam_level n i = pam_level n j -> i = j.
Proof. unfold pam_level; lia. Qed.
Lemma pam_level_surj h x : 0 < h -> Z.Odd x -> (Z.abs x < 2 ^ Z.of_nat h)%Z ->
  exists i, i < 2 ^ h /\ pam_level (2 ^ h) i = x.
Proof.
  intros Hh [m ->] Hx. rewrite <- pow2_Z in Hx. destruct (pow2_even h Hh) as [q [E Hq]].
  unfold pam_level; rewrite E in *.
  exists (Z.to_nat (m + Z.of_nat q)); lia.
Qed.

(** ** membership and distinctness of grids *)
Lemma grid_NoDup {A} m n (f : nat -> nat -> A) :
  (forall i j i' j', i < m -> j < n -> i' < m -> j' < n -> f i j = f i' j' -> i = i' /\ j = j') ->
  NoDup (grid m n f).
Proof.
  intros Hf; apply NoDup_nth_error; intros a b Ha E.
  assert (Hb : b < length (grid m n f)).
  { apply nth_error_Some; rewrite <- E; apply nth_error_Some; assumption. }
  rewrite grid_length in *. rewrite !grid_nth_divmod in E by assumption.
  destruct (divmod_idx _ _ _ Ha) as [? [? [? Ea]]], (divmod_idx _ _ _ Hb) as [? [? [? Eb]]].
  injection E as E. apply Hf in E; try assumption. destruct E as [E1 E2]. rewrite Ea, Eb, E1, E2; reflexivity.
Qed.

Lemma square_qam_in h z : 0 < h -> In z (square_qam h) <-> square_point h z.
Proof.
  intros Hh; unfold square_qam; rewrite in_grid; unfold square_point; split.
  - intros [i [j [Hi [Hj <-]]]]; cbn [fst snd]. rewrite <- pow2_Z.
    repeat split; auto using pam_level_odd, pam_level_bound.
  - destruct z as [x y]; cbn [fst snd]; intros [Ox [Oy [Bx By]]].
    destruct (pam_level_surj h x Hh Ox Bx) as [i [Hi Ei]], (pam_level_surj h y Hh Oy By) as [j [Hj Ej]].
    exists i, j; rewrite Ei, Ej; auto.
Qed.
Lemma square_qam_length h : length (square_qam h) = 2 ^ (2 * h).
Proof. unfold square_qam; rewrite grid_length, <- Nat.pow_add_r; f_equal; lia. Qed.
Lemma square_qam_NoDup h : NoDup (square_qam h).
Proof.
  apply grid_NoDup; intros i j i' j' _ _ _ _ E; injection E as E1 E2.
  apply pam_level_inj in E1, E2; auto.
Qed.

(** ** cross *)
Definition sg (x v : Z) : Z := if (x <? 0)%Z then (- v)%Z else v.
Lemma sgn_mul x v : x <> 0%Z -> (Z.sgn x * v = sg x v)%Z.
Proof. intros; unfold sg; destruct (Z.ltb_spec x 0); [rewrite Z.sgn_neg by lia|rewrite Z.sgn_pos by lia]; lia. Qed.

Lemma cross_move_odd s2 x y : Z.Odd x -> Z.Odd y -> cross_move s2 (x, y) =
  if (3 * s2 <? 2 * Z.abs x)%Z && (s2 <? 2 * Z.abs y)%Z then (sg x (Z.abs x - s2), sg y (2 * s2 - Z.abs y))%Z
  else if (3 * s2 <? 2 * Z.abs x)%Z && (2 * Z.abs y <=? s2)%Z then (sg x (2 * s2 - Z.abs x), sg y (Z.abs y + s2))%Z
  else (x, y).
Proof.
  intros [a ->] [b ->]; unfold cross_move. rewrite !sgn_mul by lia. reflexivity.
Qed.

Lemma cross_move_small s2 x y : (2 * Z.abs x <= 3 * s2)%Z -> cross_move s2 (x, y) = (x, y).
Proof.
  intros H; unfold cross_move. destruct (Z.ltb_spec (3 * s2) (2 * Z.abs x)); [lia|reflexivity].
Qed.

Lemma Odd_mod x : Z.Odd x <-> (x mod 2 = 1)%Z.
Proof. split; [intros [m ->]; lia|]. intros H; exists (x / 2)%Z; lia. Qed.

Section Cross.
Variable n : nat.
Hypothesis Hn : 2 <= n.
Let s2 := (2 ^ Z.of_nat n)%Z.

Lemma s2_mult4 : exists q, s2 = (4 * q)%Z /\ (0 < q)%Z.
Proof.
  exists (2 ^ Z.of_nat (n - 2))%Z; unfold s2; split; [|apply Z.pow_pos_nonneg; lia].
  replace (Z.of_nat n) with (2 + Z.of_nat (n - 2))%Z by lia.
  rewrite Z.pow_add_r by lia; reflexivity.
Qed.


Lemma cross_move_point x y : Z.Odd x -> Z.Odd y -> (Z.abs x < 2 * s2)%Z -> (Z.abs y < s2)%Z ->
  cross_point n (cross_move s2 (x, y)).
Proof.
  intros Ox Oy Hx Hy; rewrite cross_move_odd by assumption.
  destruct s2_mult4 as [q [Eq Hq]].
  unfold cross_point; fold s2; rewrite !Odd_mod in *; rewrite Eq in *; clear Eq; unfold sg.
  destruct (Z.ltb_spec (3 * (4 * q)) (2 * Z.abs x)), (Z.ltb_spec (4 * q) (2 * Z.abs y));
    cbn [andb]; [| destruct (Z.leb_spec (2 * Z.abs y) (4 * q)); [|lia]| |];
    destruct (Z.ltb_spec x 0), (Z.ltb_spec y 0); cbn [fst snd]; repeat split; try lia.
Qed.

Definition cross_back (z : Z * Z) : Z * Z :=
  let '(u, v) := z in
  if (Z.abs v <? s2)%Z then (u, v)
  else if (2 * Z.abs u <? s2)%Z then (sg u (2 * s2 - Z.abs u), sg v (Z.abs v - s2))%Z
  else (sg u (Z.abs u + s2), sg v (2 * s2 - Z.abs v))%Z.

Lemma cross_back_move x y :
  Z.Odd x -> Z.Odd y -> (Z.abs x < 2 * s2)%Z -> (Z.abs y < s2)%Z ->
  cross_back (cross_move s2 (x, y)) = (x, y).
Proof.
  intros Ox Oy Hx Hy; rewrite !cross_move_odd by assumption.
  destruct s2_mult4 as [q [Eq Hq]]. rewrite !Odd_mod in *; rewrite Eq in *.
  destruct (Z.ltb_spec (3 * (4 * q)) (2 * Z.abs x)), (Z.ltb_spec (4 * q) (2 * Z.abs y));
    cbn [andb]; [| destruct (Z.leb_spec (2 * Z.abs y) (4 * q)); [|lia]| |];
    unfold cross_back; rewrite Eq; clear Eq; unfold sg;
    destruct (Z.ltb_spec x 0), (Z.ltb_spec y 0);
    repeat match goal with |- context [(?a <? ?b)%Z] => destruct (Z.ltb_spec a b); try lia end; f_equal; lia.
Qed.

Lemma cross_move_inj x y x' y' :
  Z.Odd x -> Z.Odd y -> (Z.abs x < 2 * s2)%Z -> (Z.abs y < s2)%Z ->
  Z.Odd x' -> Z.Odd y' -> (Z.abs x' < 2 * s2)%Z -> (Z.abs y' < s2)%Z ->
  cross_move s2 (x, y) = cross_move s2 (x', y') -> (x, y) = (x', y').
Proof.
  intros Ox Oy Hx Hy Ox' Oy' Hx' Hy' E.
  rewrite <- (cross_back_move x y), <- (cross_back_move x' y') by assumption. rewrite E; reflexivity.
Qed.

Lemma cross_move_surj z : cross_point n z ->
  exists x y, Z.Odd x /\ Z.Odd y /\ (Z.abs x < 2 * s2)%Z /\ (Z.abs y < s2)%Z /\ cross_move s2 (x, y) = z.
Proof.
  destruct z as [u v]; unfold cross_point; cbn [fst snd]; fold s2.
  destruct s2_mult4 as [q [Eq Hq]]. intros [Ou [Ov [Bu [Bv Hc]]]].
  destruct (Z.lt_ge_cases (Z.abs v) s2) as [Hv|Hv].
  - exists u, v; repeat split; auto; [lia|]. apply cross_move_small; lia.
  - (* |v| above s2, so |u| < s2 *)
    destruct (Z.lt_ge_cases (2 * Z.abs u) s2) as [Hu|Hu].
    + exists (sg u (2 * s2 - Z.abs u))%Z, (sg v (Z.abs v - s2))%Z.
      rewrite cross_move_odd; rewrite !Odd_mod in *; rewrite Eq in *; clear Eq; unfold sg;
      (destruct (Z.ltb_spec u 0), (Z.ltb_spec v 0); repeat split; try lia).
      all: repeat match goal with |- context [(?a <? ?b)%Z] => destruct (Z.ltb_spec a b); try lia
                  | |- context [(?a <=? ?b)%Z] => destruct (Z.leb_spec a b); try lia end; cbn [andb]; f_equal; lia.
    + exists (sg u (Z.abs u + s2))%Z, (sg v (2 * s2 - Z.abs v))%Z.
      rewrite cross_move_odd; rewrite !Odd_mod in *; rewrite Eq in *; clear Eq; unfold sg;
      (destruct (Z.ltb_spec u 0), (Z.ltb_spec v 0); repeat split; try lia).
      all: repeat match goal with |- context [(?a <? ?b)%Z] => destruct (Z.ltb_spec a b); try lia
                  | |- context [(?a <=? ?b)%Z] => destruct (Z.leb_spec a b); try lia end; cbn [andb]; f_equal; lia.
Qed.
End Cross.

Lemma pow2_succ_Z n : (2 ^ Z.of_nat (n + 1) = 2 * 2 ^ Z.of_nat n)%Z.
Proof. replace (Z.of_nat (n + 1)) with (Z.succ (Z.of_nat n)) by lia. apply Z.pow_succ_r; lia. Qed.

Lemma cross_qam_in n z : 2 <= n -> In z (cross_qam n) <-> cross_point n z.
Proof.
  intros Hn; unfold cross_qam; rewrite in_grid; split.
  - intros [i [j [Hi [Hj <-]]]]. apply cross_move_point; try (apply pam_level_odd; lia); [assumption| |].
    + rewrite <- pow2_succ_Z, <- pow2_Z; apply pam_level_bound; assumption.
    + rewrite <- pow2_Z; apply pam_level_bound; assumption.
  - intros Hz; destruct (cross_move_surj n Hn z Hz) as [x [y [Ox [Oy [Bx [By <-]]]]]].
    rewrite <- pow2_succ_Z in Bx.
    destruct (pam_level_surj (n + 1) x ltac:(lia) Ox Bx) as [i [Hi Ei]], (pam_level_surj n y ltac:(lia) Oy By) as [j [Hj Ej]].
    exists i, j; rewrite Ei, Ej; auto.
Qed.
Lemma cross_qam_length n : length (cross_qam n) = 2 ^ (2 * n + 1).
Proof. unfold cross_qam; rewrite grid_length, <- Nat.pow_add_r; f_equal; lia. Qed.
Lemma cross_qam_small n : n < 2 -> cross_qam n =
  grid (2 ^ (n + 1)) (2 ^ n) (fun i j => (pam_level (2 ^ (n + 1)) i, pam_level (2 ^ n) j)).
Proof.
  intros Hn. destruct n as [|[|n]]; [reflexivity|reflexivity|lia].
Qed.
Lemma cross_qam_NoDup n : NoDup (cross_qam n).
Proof.
  destruct (Nat.lt_ge_cases n 2) as [Hn|Hn].
  - rewrite cross_qam_small by assumption. apply grid_NoDup; intros i j i' j' _ _ _ _ E; injection E as E1 E2.
    apply pam_level_inj in E1, E2; auto.
  - apply grid_NoDup; intros i j i' j' Hi Hj Hi' Hj' E.
    apply cross_move_inj in E; try (apply pam_level_odd; lia);
      try (rewrite <- pow2_succ_Z, <- pow2_Z; apply pam_level_bound; assumption);
      try (rewrite <- pow2_Z; apply pam_level_bound; assumption); try assumption.
    injection E as E1 E2. apply pam_level_inj in E1, E2; auto.
Qed.
Lemma cross_qam_in_small n z : n < 2 -> In z (cross_qam n) <-> rect_point (n + 1) n z.
Proof.
  intros Hn; rewrite cross_qam_small by assumption; rewrite in_grid; unfold rect_point; split.
  - intros [i [j [Hi [Hj <-]]]]; cbn [fst snd]. rewrite <- !pow2_Z. repeat split; auto using pam_level_bound.
    + apply pam_level_odd; lia.
    + destruct n; [|apply pam_level_odd; lia]. cbn in Hj; assert (j = 0) by lia; subst; reflexivity.
  - destruct z as [x y]; cbn [fst snd]; intros [Ox [Oy [Bx By]]].
    destruct (pam_level_surj (n + 1) x ltac:(lia) Ox Bx) as [i [Hi Ei]].
    destruct n.
    + cbn in Oy; subst y. exists i, 0; rewrite Ei; repeat split; auto; cbn; lia.
    + destruct (pam_level_surj (S n) y ltac:(lia) Oy By) as [j [Hj Ej]].
      exists i, j; rewrite Ei, Ej; auto.
Qed.

(** ** the alphabet of any order *)
Lemma even_half k : Nat.even k = true -> k = 2 * (k / 2).
Proof. intros E; apply Nat.even_spec in E; destruct E as [m ->]. rewrite (Nat.mul_comm 2 m), Nat.div_mul; lia. Qed.
Lemma odd_half k : Nat.odd k = true -> k = 2 * ((k - 1) / 2) + 1.
Proof.
  intros E; apply Nat.odd_spec in E; destruct E as [m ->].
  replace (2 * m + 1 - 1) with (m * 2) by lia. rewrite Nat.div_mul; lia.
Qed.
Lemma even_odd_false k : Nat.even k = negb (Nat.odd k).
Proof. unfold Nat.odd; rewrite negb_involutive; reflexivity. Qed.

Lemma cal_symbols_qam_length k : length (cal_symbols_qam k) = 2 ^ k.
Proof.
  unfold cal_symbols_qam. destruct (Nat.odd k) eqn:E.
  - rewrite cross_qam_length. f_equal; symmetry; apply odd_half; assumption.
  - rewrite square_qam_length. f_equal; symmetry; apply even_half. rewrite even_odd_false, E; reflexivity.
Qed.
Lemma cal_symbols_qam_NoDup k : NoDup (cal_symbols_qam k).
Proof. unfold cal_symbols_qam; destruct (Nat.odd k); [apply cross_qam_NoDup|apply square_qam_NoDup]. Qed.
