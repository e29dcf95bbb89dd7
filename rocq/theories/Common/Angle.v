(** The argument of a complex number (np.angle) over R.  For z <> 0 it is the unique t in
    (-PI, PI] with z = |z| exp(i t); np.angle(0) = 0.  Signed zeros are not modelled. *)
From Coq Require Import Reals Lra Lia ZArith.
From Verif Require Import Common.Cplx.
Local Open Scope R_scope.

Definition Carg (z : C) : R :=
  if Ceq_dec z C0 then 0
  else let c := acos (fst z / Cabs z) in
       if Rle_dec 0 (snd z) then c else - c.

Lemma Cabs_pos z : z <> C0 -> 0 < Cabs z.
Proof.
  intro H. destruct (Rle_lt_or_eq_dec 0 (Cabs z) (Cabs_nonneg z)) as [h | h]; [exact h |].
  exfalso; apply H. apply Cabs_0. congruence.
Qed.

Lemma Carg_ratio z : z <> C0 -> -1 <= fst z / Cabs z <= 1.
Proof.
  intro H. pose proof (Cabs_pos z H) as hp.
  pose proof (Cabs_sqr z) as hs. unfold Cnorm2 in hs.
  split.
  - apply (Rmult_le_reg_r (Cabs z)); [exact hp |].
    unfold Rdiv. rewrite Rmult_assoc, Rinv_l by lra.
    destruct (Rle_dec 0 (fst z)); [nra |]. nra.
  - apply (Rmult_le_reg_r (Cabs z)); [exact hp |].
    unfold Rdiv. rewrite Rmult_assoc, Rinv_l by lra.
    destruct (Rle_dec (fst z) 0); [nra |]. nra.
Qed.

Lemma Carg_bounds z : - PI < Carg z <= PI.
Proof.
  pose proof PI_RGT_0 as hpi. unfold Carg.
  destruct (Ceq_dec z C0) as [h | h]; [lra |]. cbv zeta.
  pose proof (acos_bound (fst z / Cabs z)) as hb.
  destruct (Rle_dec 0 (snd z)) as [h0 | h0]; [lra |].
  split; [| lra].
  destruct (Rle_lt_or_eq_dec _ _ (proj2 hb)) as [hl | he]; [lra |]. exfalso.
  pose proof (cos_acos _ (Carg_ratio z h)) as hc. rewrite he, cos_PI in hc.
  pose proof (Cabs_pos z h) as hp. pose proof (Cabs_sqr z) as hs. unfold Cnorm2 in hs.
  assert (hf : fst z = - Cabs z).
  { apply (Rmult_eq_reg_r (/ Cabs z)); [| apply Rinv_neq_0_compat; lra].
    change (fst z / Cabs z = - Cabs z * / Cabs z). rewrite <- hc.
    rewrite Ropp_mult_distr_l_reverse, Rinv_r by lra. reflexivity. }
  rewrite hf in hs. assert (snd z * snd z = 0) by nra. nra.
Qed.

Lemma Carg_polar z : z = Cscal (Cabs z) (Cexpi (Carg z)).
Proof.
  destruct (Ceq_dec z C0) as [h | h].
  { subst z. assert (Cabs C0 = 0) as -> by (apply Cabs_0; reflexivity).
    unfold Cscal, C0. rewrite !Rmult_0_l. reflexivity. }
  pose proof (Cabs_pos z h) as hp. pose proof (Cabs_sqr z) as hs. unfold Cnorm2 in hs.
  pose proof (Carg_ratio z h) as hr. pose proof (cos_acos _ hr) as hc.
  pose proof (acos_bound (fst z / Cabs z)) as hb.
  assert (hsin : sin (acos (fst z / Cabs z)) * Cabs z = Rabs (snd z)).
  { assert (h1 : 0 <= sin (acos (fst z / Cabs z))) by (apply sin_ge_0; lra).
    pose proof (sin2_cos2 (acos (fst z / Cabs z))) as h2. rewrite hc in h2. unfold Rsqr in h2.
    apply Rsqr_inj; [nra | apply Rabs_pos |]. rewrite <- Rsqr_abs. unfold Rsqr.
    assert (h3 : fst z / Cabs z * Cabs z = fst z) by (field; lra).
    set (q := fst z / Cabs z) in *. set (s := sin (acos q)) in *. set (A := Cabs z) in *.
    assert ((s * s + q * q) * (A * A) = A * A) by (rewrite h2; ring).
    rewrite <- h3 in hs. nra. }
  unfold Carg. destruct (Ceq_dec z C0); [contradiction |]. cbv zeta.
  apply C_eq; unfold Cscal, Cexpi; cbn [fst snd].
  - destruct (Rle_dec 0 (snd z)); [| rewrite cos_neg]; rewrite hc; field; lra.
  - destruct (Rle_dec 0 (snd z)) as [h0 | h0].
    + rewrite Rmult_comm, hsin, Rabs_right; lra.
    + rewrite sin_neg. rewrite Rabs_left in hsin by lra. lra.
Qed.

(** angles with the same direction differ by a multiple of a full turn *)
Definition turns (t : R) : Prop := exists k : Z, t = IZR k * (2 * PI).

Lemma Cexpi_turn t k : Cexpi (t + IZR k * (2 * PI)) = Cexpi t.
Proof.
  assert (hn : forall (n : nat) u, Cexpi (u + INR n * (2 * PI)) = Cexpi u).
  { intros n u. unfold Cexpi.
    replace (u + INR n * (2 * PI)) with (u + 2 * INR n * PI) by ring.
    rewrite cos_period, sin_period. reflexivity. }
  destruct k as [| p | p].
  - rewrite Rmult_0_l, Rplus_0_r. reflexivity.
  - rewrite <- (positive_nat_Z p), <- INR_IZR_INZ. apply hn.
  - rewrite <- (hn (Pos.to_nat p) (t + IZR (Z.neg p) * (2 * PI))). f_equal.
    rewrite INR_IZR_INZ, positive_nat_Z.
    replace (IZR (Z.neg p)) with (- IZR (Z.pos p)) by (rewrite <- opp_IZR; reflexivity). ring.
Qed.

Lemma Cexpi_turns a b : turns (a - b) -> Cexpi a = Cexpi b.
Proof. intros [k h]. replace a with (b + IZR k * (2 * PI)) by lra. apply Cexpi_turn. Qed.

Lemma small_turn t : turns t -> - (2 * PI) < t < 2 * PI -> t = 0.
Proof.
  intros [k ->] [h1 h2]. pose proof PI_RGT_0 as hpi.
  assert (h3 : -1 < IZR k < 1) by (split; nra).
  assert (k = 0%Z).
  { destruct h3 as [h3 h4]. apply lt_IZR in h4. change (-1) with (IZR (-1)) in h3.
    apply lt_IZR in h3. lia. }
  subst k. ring.
Qed.

Lemma cos_one_turns t : cos t = 1 -> turns t.
Proof.
  intro h. pose proof (cos_2a_sin (t / 2)) as h2. replace (2 * (t / 2)) with t in h2 by field.
  assert (h3 : sin (t / 2) = 0) by nra.
  apply sin_eq_0_0 in h3. destruct h3 as [k hk]. exists k. lra.
Qed.

Lemma Cexpi_eq_turns a b : Cexpi a = Cexpi b -> turns (a - b).
Proof.
  intro h. unfold Cexpi in h. apply (f_equal (fun p => (fst p, snd p))) in h. cbn in h.
  injection h as hc hs. apply cos_one_turns. rewrite cos_minus, hc, hs.
  pose proof (sin2_cos2 b) as hb. unfold Rsqr in hb. lra.
Qed.

Lemma turns_0 : turns 0. Proof. exists 0%Z. ring. Qed.
Lemma turns_add a b : turns a -> turns b -> turns (a + b).
Proof. intros [k ->] [j ->]. exists (k + j)%Z. rewrite plus_IZR. ring. Qed.
Lemma turns_opp a : turns a -> turns (- a).
Proof. intros [k ->]. exists (- k)%Z. rewrite opp_IZR. ring. Qed.
Lemma turns_sub a b : turns a -> turns b -> turns (a - b).
Proof. intros h1 h2. apply turns_add; [exact h1 | apply turns_opp; exact h2]. Qed.

Lemma Cscal_expi_neq0 r t : 0 < r -> Cscal r (Cexpi t) <> C0.
Proof.
  intros hr h. apply Cabs_0 in h.
  assert (h2 : Cnorm2 (Cscal r (Cexpi t)) = r * r) by (rewrite Cnorm2_scal, Cnorm2_expi; ring).
  pose proof (Cabs_sqr (Cscal r (Cexpi t))) as h3. rewrite h, h2 in h3. nra.
Qed.

Lemma Cabs_scal_expi r t : 0 <= r -> Cabs (Cscal r (Cexpi t)) = r.
Proof.
  intro hr. unfold Cabs. rewrite Cnorm2_scal, Cnorm2_expi, Rmult_1_r. apply sqrt_square. exact hr.
Qed.

(** the argument up to full turns *)
Lemma Carg_scal_expi r t : 0 < r -> turns (Carg (Cscal r (Cexpi t)) - t).
Proof.
  intro hr. apply Cexpi_eq_turns.
  pose proof (Carg_polar (Cscal r (Cexpi t))) as h.
  rewrite Cabs_scal_expi in h by lra.
  set (u := Carg (Cscal r (Cexpi t))) in *. clearbody u.
  unfold Cscal, Cexpi in *. cbn [fst snd] in h. injection h as h1 h2.
  apply Rmult_eq_reg_l in h1; [| lra]. apply Rmult_eq_reg_l in h2; [| lra].
  rewrite h1, h2. reflexivity.
Qed.

Lemma Carg_unique r t : 0 < r -> - PI < t <= PI -> Carg (Cscal r (Cexpi t)) = t.
Proof.
  intros hr ht. pose proof (Carg_scal_expi r t hr) as h.
  pose proof (Carg_bounds (Cscal r (Cexpi t))) as hb.
  apply small_turn in h; lra.
Qed.
