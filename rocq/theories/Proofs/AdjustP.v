From Coq Require Import List ZArith Arith Bool Lia Reals ZifyBool ZifyNat.
From Verif Require Import Common.Py Common.ListX Common.Cplx Common.SumX Model.Sync Spec.Seq.
Import ListNotations.
Local Open Scope nat_scope.

Lemma mod_eq a l q t : (0 <= t < l)%Z -> (a = q * l + t)%Z -> (a mod l = t)%Z.
Proof. intros Ht E. symmetry. apply Z.mod_unique with q; lia. Qed.

(** periodic lookup *)
Definition pnth {A} (l : list A) (z : Z) : option A := nth_error l (Z.to_nat (z mod Z.of_nat (length l))).
Lemma pnth_cong {A} (l : list A) a b q : 0 < length l -> (a = b + q * Z.of_nat (length l))%Z -> pnth l a = pnth l b.
Proof. intros Hl ->. unfold pnth. rewrite Z_mod_plus_full. reflexivity. Qed.
Lemma pnth_in {A} (l : list A) i : i < length l -> pnth l (Z.of_nat i) = nth_error l i.
Proof. intros H. unfold pnth. rewrite Z.mod_small by lia. now rewrite Nat2Z.id. Qed.
Lemma pnth_nat {A} (l : list A) i : 0 < length l -> nth_error l (i mod length l) = pnth l (Z.of_nat i).
Proof.
  intros H. unfold pnth. rewrite <- Nat2Z.inj_mod. now rewrite Nat2Z.id.
Qed.

Lemma firstn_tile_like {A} (l : list A) k r : r < length l -> 0 < length l ->
  length (tile k l ++ firstn r l) = k * length l + r /\
  forall i, i < k * length l + r -> nth_error (tile k l ++ firstn r l) i = pnth l (Z.of_nat i).
Proof.
  intros Hr Hl. split.
  - rewrite app_length, tile_length, firstn_length. lia.
  - intros i Hi. destruct (Nat.lt_ge_cases i (k * length l)) as [H|H].
    + rewrite nth_error_app1 by (rewrite tile_length; lia). rewrite tile_nth by assumption. now apply pnth_nat.
    + rewrite nth_error_app2 by (rewrite tile_length; lia). rewrite tile_length.
      rewrite nth_error_firstn_lt by lia. rewrite <- pnth_in by lia.
      apply pnth_cong with (- Z.of_nat k)%Z; [assumption|]. nia.
Qed.

Lemma adjust_to_back {A} (l : list A) n : 0 < length l ->
  exists out, adjust_to l n true = Ok out /\
    (Z.of_nat (length out) = if (n <? 0)%Z then n mod Z.of_nat (length l) else n)%Z /\
    forall i, i < length out -> nth_error out i = pnth l (Z.of_nat i).
Proof.
  intros Hl. unfold adjust_to. destruct (Z.eqb_spec (Z.of_nat (length l)) 0); [lia|].
  pose proof (Z.mod_pos_bound n (Z.of_nat (length l)) ltac:(lia)) as Hr.
  pose proof (Z.div_mod n (Z.of_nat (length l)) ltac:(lia)) as Hd.
  set (L := Z.of_nat (length l)) in *. set (k := (n / L)%Z) in *. set (r := (n mod L)%Z) in *.
  eexists. split; [reflexivity|].
  unfold pyslice_to. fold L. rewrite clipz_pos by lia.
  destruct (firstn_tile_like l (Z.to_nat k) (Z.to_nat r) ltac:(lia) Hl) as [E1 E2].
  rewrite E1. split; [|exact E2].
  destruct (Z.ltb_spec n 0).
  - replace (Z.to_nat k) with 0; [lia|]. assert (k < 0)%Z by nia. lia.
  - assert (0 <= k)%Z by nia. unfold L in *. nia.
Qed.

Definition front_len (L n : Z) : Z :=
  if (n mod L =? 0)%Z then (Z.max 0 n + L)%Z else if (n <? 0)%Z then (n mod L)%Z else n.

Lemma adjust_to_front {A} (l : list A) n : 0 < length l ->
  exists out, adjust_to l n false = Ok out /\
    Z.of_nat (length out) = front_len (Z.of_nat (length l)) n /\
    (exists q, Z.of_nat (length out) = n + q * Z.of_nat (length l))%Z /\
    forall i, i < length out -> nth_error out i = pnth l (Z.of_nat i - n).
Proof.
  intros Hl. unfold adjust_to. destruct (Z.eqb_spec (Z.of_nat (length l)) 0); [lia|].
  pose proof (Z.mod_pos_bound n (Z.of_nat (length l)) ltac:(lia)) as Hr.
  pose proof (Z.div_mod n (Z.of_nat (length l)) ltac:(lia)) as Hd.
  unfold front_len.
  set (L := Z.of_nat (length l)) in *. set (k := (n / L)%Z) in *. set (r := (n mod L)%Z) in *.
  eexists. split; [reflexivity|].
  unfold pyslice_from. fold L.
  assert (Ec : clipz L (- r) = if (r =? 0)%Z then 0%Z else (L - r)%Z).
  { unfold clipz. destruct (Z.eqb_spec r 0) as [->|]; [cbn; lia|]. destruct (Z.ltb_spec (- r) 0); lia. }
  rewrite Ec. set (s := Z.to_nat (if (r =? 0)%Z then 0 else L - r)%Z).
  assert (Hs : s < length l) by (subst s; destruct (Z.eqb_spec r 0); lia).
  assert (Elen : length (skipn s l ++ tile (Z.to_nat k) l) = (length l - s) + Z.to_nat k * length l)
    by (rewrite app_length, skipn_length, tile_length; reflexivity).
  rewrite Elen. split; [|split].
  - subst s. destruct (Z.eqb_spec r 0) as [E|E].
    + replace (length l - Z.to_nat 0) with (length l) by lia.
      destruct (Z.lt_ge_cases n 0).
      * replace (Z.to_nat k) with 0 by nia. lia.
      * assert (0 <= k)%Z by nia. nia.
    + destruct (Z.ltb_spec n 0).
      * replace (Z.to_nat k) with 0 by nia. lia.
      * assert (0 <= k)%Z by nia. nia.
  - exists (Z.of_nat (Z.to_nat k) - k + (if (r =? 0)%Z then 1 else 0))%Z.
    subst s. destruct (Z.eqb_spec r 0) as [E|E]; nia.
  - intros i Hi. destruct (Nat.lt_ge_cases i (length l - s)) as [H|H].
    + rewrite nth_error_app1 by (rewrite skipn_length; lia). rewrite nth_error_skipn'.
      rewrite <- pnth_in by lia.
      apply pnth_cong with (k + (if (r =? 0)%Z then 0 else 1))%Z; [assumption|].
      fold L. subst s. destruct (Z.eqb_spec r 0) as [E|E]; nia.
    + rewrite nth_error_app2 by (rewrite skipn_length; lia). rewrite skipn_length.
      rewrite tile_nth by lia. rewrite pnth_nat by assumption.
      apply pnth_cong with (k - (if (r =? 0)%Z then 1 else 0))%Z; [assumption|].
      fold L. subst s. destruct (Z.eqb_spec r 0) as [E|E]; nia.
Qed.

(** when the lengthened array has exactly the wanted length *)
Definition extend_ok (L n offset : Z) : bool :=
  (offset <=? n)%Z && ((offset <=? 0)%Z || negb (offset mod L =? 0)%Z || (offset + L <=? n)%Z).

Lemma extend_arr_spec {A} (l : list A) n offset : 0 < length l -> (Z.of_nat (length l) < n)%Z ->
  exists out, extend_arr l n offset = Ok out /\ delayed_repetition l offset out /\
    (Z.of_nat (length out) = n <-> extend_ok (Z.of_nat (length l)) n offset = true) /\
    (n <= Z.of_nat (length out))%Z.
Proof.
  intros Hl Hn. unfold extend_arr. destruct (Z.eqb_spec offset 0) as [->|Hne].
  - destruct (adjust_to_back l n Hl) as (out & E & Elen & Ec). exists out. split; [exact E|].
    destruct (Z.ltb_spec n 0); [lia|]. split; [|split].
    + intros k Hk. rewrite Ec by assumption. unfold pnth. now rewrite Z.sub_0_r.
    + unfold extend_ok. cbn. lia.
    + lia.
  - destruct (adjust_to_front l offset Hl) as (a & Ea & Elen & (q & Eq) & Ec). rewrite Ea. cbn [bind].
    destruct (adjust_to_back l (n - Z.of_nat (length a)) Hl) as (b & Eb & Eblen & Ebc). rewrite Eb. cbn [bind].
    eexists. split; [reflexivity|]. split; [|split].
    + intros k Hk. rewrite app_length in Hk. destruct (Nat.lt_ge_cases k (length a)) as [H|H].
      * rewrite nth_error_app1 by assumption. apply Ec. assumption.
      * rewrite nth_error_app2 by assumption. rewrite Ebc by lia.
        change (pnth l (Z.of_nat (k - length a)) = pnth l (Z.of_nat k - offset)).
        apply pnth_cong with (- q)%Z; [assumption|]. lia.
    + rewrite app_length. unfold extend_ok.
      pose proof (Z.mod_pos_bound (n - Z.of_nat (length a)) (Z.of_nat (length l)) ltac:(lia)) as Hm.
      unfold front_len in Elen.
      pose proof (Z.mod_pos_bound offset (Z.of_nat (length l)) ltac:(lia)) as Hm2.
      generalize dependent (offset mod Z.of_nat (length l))%Z. intros r Elen Hm2.
      generalize dependent ((n - Z.of_nat (length a)) mod Z.of_nat (length l))%Z. intros r' Eblen Hm.
      destruct (Z.eqb_spec r 0) as [Er|Er].
      * destruct (Z.ltb_spec (n - Z.of_nat (length a)) 0); lia.
      * destruct (Z.ltb_spec offset 0); destruct (Z.ltb_spec (n - Z.of_nat (length a)) 0); lia.
    + rewrite app_length.
      pose proof (Z.mod_pos_bound (n - Z.of_nat (length a)) (Z.of_nat (length l)) ltac:(lia)) as Hm.
      destruct (Z.ltb_spec (n - Z.of_nat (length a)) 0); lia.
Qed.

Lemma extend_none_spec {A} (l : list A) n offset : 0 < length l -> (Z.of_nat (length l) < n)%Z ->
  exists out, extend_none l n offset = Ok out /\ delayed_repetition l offset out /\
    (Z.of_nat (length out) = n <-> offset = 0%Z \/ (0 < offset <= n /\ offset mod Z.of_nat (length l) <> 0)%Z).
Proof.
  intros Hl Hn. unfold extend_none. destruct (Z.eqb_spec offset 0) as [->|Hne].
  - destruct (adjust_to_back l n Hl) as (out & E & Elen & Ec). exists out. split; [exact E|].
    destruct (Z.ltb_spec n 0); [lia|]. split.
    + intros k Hk. rewrite Ec by assumption. unfold pnth. now rewrite Z.sub_0_r.
    + lia.
  - destruct (adjust_to_front l offset Hl) as (a & Ea & Elen & (q & Eq) & Ec). rewrite Ea. cbn [bind].
    destruct (adjust_to_back l (n - offset) Hl) as (b & Eb & Eblen & Ebc). rewrite Eb. cbn [bind].
    eexists. split; [reflexivity|]. split.
    + intros k Hk. rewrite app_length in Hk. destruct (Nat.lt_ge_cases k (length a)) as [H|H].
      * rewrite nth_error_app1 by assumption. apply Ec. assumption.
      * rewrite nth_error_app2 by assumption. rewrite Ebc by lia.
        change (pnth l (Z.of_nat (k - length a)) = pnth l (Z.of_nat k - offset)).
        apply pnth_cong with (- q)%Z; [assumption|]. lia.
    + rewrite app_length. unfold front_len in Elen.
      pose proof (Z.mod_pos_bound (n - offset) (Z.of_nat (length l)) ltac:(lia)) as Hm.
      pose proof (Z.mod_pos_bound offset (Z.of_nat (length l)) ltac:(lia)) as Hm2.
      generalize dependent (offset mod Z.of_nat (length l))%Z. intros r Elen Hm2.
      generalize dependent ((n - offset) mod Z.of_nat (length l))%Z. intros r' Eblen Hm.
      destruct (Z.eqb_spec r 0) as [Er|Er].
      * destruct (Z.ltb_spec (n - offset) 0); lia.
      * destruct (Z.ltb_spec offset 0); destruct (Z.ltb_spec (n - offset) 0); lia.
Qed.
