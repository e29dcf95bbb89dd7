(** Finite sums indexed by 0..n-1. *)
From Coq Require Import List Reals Lra Lia Arith ZArith Bool.
From Verif Require Import Common.Cplx.
Import ListNotations.
Local Open Scope R_scope.

Definition csum (n : nat) (f : nat -> C) : C := Csum (map f (seq 0 n)).
Definition rsum (n : nat) (f : nat -> R) : R := Rsum (map f (seq 0 n)).

Lemma csum_0 f : csum 0 f = C0. Proof. reflexivity. Qed.
Lemma rsum_0 f : rsum 0 f = 0. Proof. reflexivity. Qed.
Lemma csum_S n f : csum (S n) f = (csum n f + f n)%C.
Proof. unfold csum. rewrite seq_S, map_app, Csum_app. cbn [map Nat.add]. rewrite Csum_cons. change (Csum []) with C0. ring. Qed.
Lemma rsum_S n f : rsum (S n) f = rsum n f + f n.
Proof. unfold rsum. rewrite seq_S, map_app, Rsum_app. cbn [map Nat.add]. rewrite Rsum_cons. change (Rsum []) with 0. ring. Qed.
Lemma csum_ext n f g : (forall i, (i < n)%nat -> f i = g i) -> csum n f = csum n g.
Proof. intros H. unfold csum. f_equal. apply map_ext_in. intros i Hi. apply in_seq in Hi. apply H. lia. Qed.
Lemma rsum_ext n f g : (forall i, (i < n)%nat -> f i = g i) -> rsum n f = rsum n g.
Proof. intros H. unfold rsum. f_equal. apply map_ext_in. intros i Hi. apply in_seq in Hi. apply H. lia. Qed.
Lemma csum_zero n f : (forall i, (i < n)%nat -> f i = C0) -> csum n f = C0.
Proof. intros H. induction n as [|n IH]; [reflexivity|]. rewrite csum_S, IH, H by (intros; try apply H; lia). ring. Qed.
Lemma rsum_zero n f : (forall i, (i < n)%nat -> f i = 0) -> rsum n f = 0.
Proof. intros H. induction n as [|n IH]; [reflexivity|]. rewrite rsum_S, IH, H by (intros; try apply H; lia). ring. Qed.
Lemma csum_add n f g : csum n (fun i => (f i + g i)%C) = (csum n f + csum n g)%C.
Proof. induction n as [|n IH]; [rewrite !csum_0; ring|]. rewrite !csum_S, IH. ring. Qed.
Lemma rsum_add n f g : rsum n (fun i => f i + g i) = rsum n f + rsum n g.
Proof. induction n as [|n IH]; [rewrite !rsum_0; ring|]. rewrite !rsum_S, IH. ring. Qed.
Lemma csum_scal n k f : csum n (fun i => (k * f i)%C) = (k * csum n f)%C.
Proof. induction n as [|n IH]; [rewrite !csum_0; ring|]. rewrite !csum_S, IH. ring. Qed.
Lemma csum_scal_r n k f : csum n (fun i => (f i * k)%C) = (csum n f * k)%C.
Proof. induction n as [|n IH]; [rewrite !csum_0; ring|]. rewrite !csum_S, IH. ring. Qed.
Lemma csum_const0 n : csum n (fun _ => C0) = C0. Proof. apply csum_zero; reflexivity. Qed.
Lemma rsum_scal n k f : rsum n (fun i => k * f i) = k * rsum n f.
Proof. induction n as [|n IH]; [rewrite !rsum_0; ring|]. rewrite !rsum_S, IH. ring. Qed.
Lemma rsum_const n k : rsum n (fun _ => k) = INR n * k.
Proof. induction n as [|n IH]; [rewrite rsum_0; cbn; ring|]. rewrite rsum_S, IH, S_INR. ring. Qed.
Lemma csum_const n k : csum n (fun _ => k) = Cscal (INR n) k.
Proof. induction n as [|n IH]; [rewrite csum_0; change (INR 0) with 0; cring|]. rewrite csum_S, IH, S_INR. cring. Qed.
Lemma csum_swap n m f : csum n (fun i => csum m (f i)) = csum m (fun j => csum n (fun i => f i j)).
Proof.
  induction n as [|n IH].
  - rewrite csum_0. symmetry. apply csum_zero. reflexivity.
  - rewrite csum_S, IH, <- csum_add. apply csum_ext. intros j _. now rewrite csum_S.
Qed.
Lemma rsum_swap n m f : rsum n (fun i => rsum m (f i)) = rsum m (fun j => rsum n (fun i => f i j)).
Proof.
  induction n as [|n IH].
  - rewrite rsum_0. symmetry. apply rsum_zero. reflexivity.
  - rewrite rsum_S, IH, <- rsum_add. apply rsum_ext. intros j _. now rewrite rsum_S.
Qed.
Lemma csum_single n f k : (k < n)%nat -> (forall i, (i < n)%nat -> i <> k -> f i = C0) -> csum n f = f k.
Proof.
  induction n as [|n IH]; intros Hk H; [lia|]. rewrite csum_S.
  destruct (Nat.eq_dec k n) as [->|Hne].
  - rewrite csum_zero; [ring|]. intros i Hi. apply H; lia.
  - rewrite IH, (H n); [ring|lia|lia|lia|]. intros i Hi Hik. apply H; lia.
Qed.
Lemma rsum_single n f k : (k < n)%nat -> (forall i, (i < n)%nat -> i <> k -> f i = 0) -> rsum n f = f k.
Proof.
  induction n as [|n IH]; intros Hk H; [lia|]. rewrite rsum_S.
  destruct (Nat.eq_dec k n) as [->|Hne].
  - rewrite rsum_zero; [ring|]. intros i Hi. apply H; lia.
  - rewrite IH, (H n); [ring|lia|lia|lia|]. intros i Hi Hik. apply H; lia.
Qed.
Lemma rsum_nonneg n f : (forall i, (i < n)%nat -> 0 <= f i) -> 0 <= rsum n f.
Proof. intros H. induction n as [|n IH]; [rewrite rsum_0; lra|]. rewrite rsum_S. assert (0 <= rsum n f) by (apply IH; intros; apply H; lia). specialize (H n ltac:(lia)). lra. Qed.
Lemma rsum_le n f g : (forall i, (i < n)%nat -> f i <= g i) -> rsum n f <= rsum n g.
Proof. intros H. induction n as [|n IH]; [rewrite !rsum_0; lra|]. rewrite !rsum_S. assert (rsum n f <= rsum n g) by (apply IH; intros; apply H; lia). specialize (H n ltac:(lia)). lra. Qed.
Lemma rsum_zero_inv n f : (forall i, (i < n)%nat -> 0 <= f i) -> rsum n f = 0 -> forall i, (i < n)%nat -> f i = 0.
Proof.
  induction n as [|n IH]; intros H E i Hi; [lia|]. rewrite rsum_S in E.
  assert (0 <= rsum n f) by (apply rsum_nonneg; intros; apply H; lia). pose proof (H n ltac:(lia)).
  destruct (Nat.eq_dec i n) as [->|]; [lra|]. apply IH; [intros; apply H; lia|lra|lia].
Qed.
Lemma csum_app n m f : csum (n + m) f = (csum n f + csum m (fun i => f (n + i)%nat))%C.
Proof.
  induction m as [|m IH]; [rewrite Nat.add_0_r, csum_0; ring|].
  rewrite Nat.add_succ_r, !csum_S, IH. ring.
Qed.
Lemma rsum_app n m f : rsum (n + m) f = rsum n f + rsum m (fun i => f (n + i)%nat).
Proof.
  induction m as [|m IH]; [rewrite Nat.add_0_r, rsum_0; ring|].
  rewrite Nat.add_succ_r, !rsum_S, IH. ring.
Qed.
Lemma csum_Sl n f : csum (S n) f = (f 0%nat + csum n (fun i => f (S i)))%C.
Proof. change (S n) with (1 + n)%nat. rewrite csum_app, csum_S, csum_0. cbn [Nat.add]. ring. Qed.
Lemma rsum_Sl n f : rsum (S n) f = f 0%nat + rsum n (fun i => f (S i)).
Proof. change (S n) with (1 + n)%nat. rewrite rsum_app, rsum_S, rsum_0. cbn [Nat.add]. ring. Qed.
Lemma csum_conj n f : Cconj (csum n f) = csum n (fun i => Cconj (f i)).
Proof. induction n as [|n IH]; [rewrite !csum_0; cring|]. rewrite !csum_S, Cconj_add, IH. reflexivity. Qed.
Lemma fst_csum n f : fst (csum n f) = rsum n (fun i => fst (f i)).
Proof. induction n as [|n IH]; [reflexivity|]. rewrite csum_S, rsum_S, <- IH. reflexivity. Qed.
Lemma snd_csum n f : snd (csum n f) = rsum n (fun i => snd (f i)).
Proof. induction n as [|n IH]; [reflexivity|]. rewrite csum_S, rsum_S, <- IH. reflexivity. Qed.
Lemma csum_RtoC n f : csum n (fun i => RtoC (f i)) = RtoC (rsum n f).
Proof. induction n as [|n IH]; [reflexivity|]. rewrite csum_S, rsum_S, IH. cring. Qed.

(** sums over one index rearranged along an injection *)
Lemma csum_kron n f (g : Z) : (0 <= g < Z.of_nat n)%Z ->
  csum n (fun i => if (Z.of_nat i =? g)%Z then f i else C0) = f (Z.to_nat g).
Proof.
  intros Hg. rewrite (csum_single n _ (Z.to_nat g)).
  - rewrite Z2Nat.id by lia. now rewrite Z.eqb_refl.
  - lia.
  - intros i Hi Hne. destruct (Z.eqb_spec (Z.of_nat i) g); [lia|reflexivity].
Qed.
Lemma csum_kron_out n f (g : Z) : ~ (0 <= g < Z.of_nat n)%Z ->
  csum n (fun i => if (Z.of_nat i =? g)%Z then f i else C0) = C0.
Proof.
  intros Hg. apply csum_zero. intros i Hi. destruct (Z.eqb_spec (Z.of_nat i) g); [lia|reflexivity].
Qed.

(** ** Cauchy-Schwarz, with the equality case *)
Definition cdot (n : nat) (a b : nat -> C) : C := csum n (fun k => (a k * Cconj (b k))%C).
Definition energy (n : nat) (a : nat -> C) : R := rsum n (fun k => Cnorm2 (a k)).

Lemma energy_nonneg n a : 0 <= energy n a.
Proof. apply rsum_nonneg. intros. apply Cnorm2_nonneg. Qed.

Lemma energy_residual n a b l :
  energy n (fun k => (a k - l * b k)%C)
  = energy n a - 2 * fst (Cconj l * cdot n a b)%C + Cnorm2 l * energy n b.
Proof.
  unfold energy, cdot. induction n as [|n IH].
  - rewrite !rsum_0, csum_0. cbn. ring.
  - rewrite !rsum_S, csum_S, IH.
    generalize (csum n (fun k => (a k * Cconj (b k))%C)) as s. intros s.
    unfold Cnorm2, Csub, Cmul, Cconj, Cadd. cbn [fst snd]. ring.
Qed.

Lemma cauchy_schwarz n a b : Cnorm2 (cdot n a b) <= energy n a * energy n b.
Proof.
  destruct (Req_dec (energy n b) 0) as [E|E].
  - assert (H : cdot n a b = C0).
    { apply csum_zero. intros k Hk.
      assert (Cnorm2 (b k) = 0) by (apply (rsum_zero_inv n _ (fun i _ => Cnorm2_nonneg (b i)) E k Hk)).
      rewrite (Cnorm2_zero _ H). cring. }
    rewrite H, E, Cnorm2_0. lra.
  - pose proof (energy_nonneg n b) as Hb.
    pose proof (energy_residual n a b (Cscal (/ energy n b) (cdot n a b))) as R.
    pose proof (energy_nonneg n (fun k => (a k - Cscal (/ energy n b) (cdot n a b) * b k)%C)) as R0.
    rewrite R in R0. clear R. rewrite Cnorm2_scal in R0.
    replace (fst (Cconj (Cscal (/ energy n b) (cdot n a b)) * cdot n a b)%C) with (/ energy n b * Cnorm2 (cdot n a b)) in R0
      by (unfold Cnorm2, Cmul, Cconj, Cscal; cbn [fst snd]; ring).
    replace (energy n a - 2 * (/ energy n b * Cnorm2 (cdot n a b)) +
       / energy n b * / energy n b * Cnorm2 (cdot n a b) * energy n b)
      with (energy n a - / energy n b * Cnorm2 (cdot n a b)) in R0 by (field; exact E).
    apply Rmult_le_reg_l with (/ energy n b); [apply Rinv_0_lt_compat; lra|].
    replace (/ energy n b * (energy n a * energy n b)) with (energy n a) by (field; exact E). lra.
Qed.

Lemma cauchy_schwarz_eq n a b : 0 < energy n b -> Cnorm2 (cdot n a b) = energy n a * energy n b ->
  forall k, (k < n)%nat -> a k = (Cscal (/ energy n b) (cdot n a b) * b k)%C.
Proof.
  intros Hb E k Hk.
  assert (R : energy n (fun k => (a k - Cscal (/ energy n b) (cdot n a b) * b k)%C) = 0).
  { rewrite energy_residual, Cnorm2_scal.
    replace (fst (Cconj (Cscal (/ energy n b) (cdot n a b)) * cdot n a b)%C) with (/ energy n b * Cnorm2 (cdot n a b))
      by (unfold Cnorm2, Cmul, Cconj, Cscal; cbn [fst snd]; ring).
    rewrite E. field. lra. }
  assert (H : Cnorm2 (a k - Cscal (/ energy n b) (cdot n a b) * b k)%C = 0)
    by (exact (rsum_zero_inv n _ (fun i _ => Cnorm2_nonneg _) R k Hk)).
  apply Cnorm2_zero in H.
  replace (a k) with ((a k - Cscal (/ energy n b) (cdot n a b) * b k) + Cscal (/ energy n b) (cdot n a b) * b k)%C by ring.
  rewrite H. ring.
Qed.

Lemma fst_le_Cabs z : Rabs (fst z) <= Cabs z.
Proof.
  unfold Cabs. rewrite <- sqrt_Rsqr_abs. apply sqrt_le_1; [apply Rle_0_sqr|apply Cnorm2_nonneg|].
  unfold Cnorm2, Rsqr. pose proof (Rle_0_sqr (snd z)) as H. unfold Rsqr in H. lra.
Qed.
Lemma snd_le_Cabs z : Rabs (snd z) <= Cabs z.
Proof.
  unfold Cabs. rewrite <- sqrt_Rsqr_abs. apply sqrt_le_1; [apply Rle_0_sqr|apply Cnorm2_nonneg|].
  unfold Cnorm2, Rsqr. pose proof (Rle_0_sqr (fst z)) as H. unfold Rsqr in H. lra.
Qed.
