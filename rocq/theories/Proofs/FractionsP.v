From Coq Require Import ZArith QArith Qabs List Lia Psatz Znumtheory.
From Verif Require Import Common.Py Model.Fractions Spec.Closest.
Local Open Scope Z_scope.

Definition Inv (mx n0 d0 n d p0 q0 p1 q1 : Z) : Prop :=
  n0 = p1 * n + p0 * d /\ d0 = q1 * n + q0 * d /\ (p1 * q0 - p0 * q1 = 1 \/ p1 * q0 - p0 * q1 = -1) /\ Z.gcd n d = 1 /\
  0 <= q0 <= mx /\ 0 <= q1 <= mx /\ 0 <= d /\ (q1 = 0 /\ q0 = 1 /\ 0 < d \/ 1 <= q1 /\ 0 < n).
Lemma Inv_pos mx n0 d0 n d p0 q0 p1 q1 : Inv mx n0 d0 n d p0 q0 p1 q1 -> mx < d0 -> 0 < d.
Proof.
  intros (A & B & C & G & Q0 & Q1 & Dd & E) L. destruct E as [(_ & _ & E)|(E1 & E2)]; [exact E|].
  destruct (Z.eq_dec d 0) as [->|N]; [|lia]. rewrite Z.gcd_0_r in G. assert (n = 1) by lia. subst n. lia.
Qed.
Lemma Inv_step mx n0 d0 n d p0 q0 p1 q1 : Inv mx n0 d0 n d p0 q0 p1 q1 -> mx < d0 -> 1 <= mx -> q0 + n / d * q1 <= mx -> (q1 = 0 \/ d <= n) ->
  Inv mx n0 d0 d (n - n / d * d) p1 q1 (p0 + n / d * p1) (q0 + n / d * q1).
Proof.
  intros I L M H Hn. pose proof (Inv_pos _ _ _ _ _ _ _ _ _ I L) as Pd. destruct I as (A & B & C & G & Q0 & Q1 & Dd & E).
  pose proof (Z.div_mod n d ltac:(lia)) as DM. pose proof (Z.mod_pos_bound n d Pd) as MB.
  assert (Hr : n - n / d * d = n mod d) by lia.
  split; [rewrite A; ring|]. split; [rewrite B; ring|].
  split; [destruct C as [C|C]; [right|left]; rewrite <- ?C; nia|].
  split; [rewrite Hr, Z.gcd_comm, Z.gcd_mod by lia; rewrite Z.gcd_comm; exact G|].
  split; [exact Q1|]. split; [split; [|exact H]|split; [lia|right; split; [|exact Pd]]].
  - destruct E as [(E1 & E2 & _)|(E1 & E2)]; [subst q1; lia|].
    assert (0 <= n / d) by (apply Z.div_pos; lia). nia.
  - destruct E as [(E1 & E2 & _)|(E1 & E2)]; [subst q1; lia|].
    assert (1 <= n / d) by (apply Z.div_le_lower_bound; [lia|]; destruct Hn; lia). nia.
Qed.
Lemma loop_ok mx n0 d0 : 1 <= mx -> mx < d0 -> forall k fuel n d p0 q0 p1 q1, Inv mx n0 d0 n d p0 q0 p1 q1 -> (q1 = 0 \/ d <= n) ->
  d < 2 ^ Z.of_nat k -> (2 * k + 1 <= fuel)%nat ->
  exists n' d' p0' q0' p1' q1', ld_loop fuel mx n d p0 q0 p1 q1 = Some (p0', q0', p1', q1') /\ Inv mx n0 d0 n' d' p0' q0' p1' q1' /\
    mx < q0' + n' / d' * q1' /\ 1 <= q1'.
Proof.
  intros M L. induction k as [|k IH]; intros fuel n d p0 q0 p1 q1 I Hn Hd Hf.
  - pose proof (Inv_pos _ _ _ _ _ _ _ _ _ I L). cbn in Hd. lia.
  - destruct fuel as [|[|fuel]]; [lia|lia|].
    pose proof (Inv_pos _ _ _ _ _ _ _ _ _ I L) as Pd.
    assert (STOP : forall n d p0 q0 p1 q1, Inv mx n0 d0 n d p0 q0 p1 q1 -> mx < q0 + n / d * q1 -> 1 <= q1).
    { clear. intros n d p0 q0 p1 q1 (A & B & C & G & Q0 & Q1 & Dd & E) H. destruct E as [(E1 & E2 & _)|(E1 & E2)]; [subst q1; lia|exact E1]. }
    cbn [ld_loop]. destruct (Z.ltb_spec mx (q0 + n / d * q1)) as [H|H].
    + exists n, d, p0, q0, p1, q1. split; [reflexivity|]. split; [exact I|]. split; [exact H|exact (STOP _ _ _ _ _ _ I H)].
    + pose proof (Inv_step _ _ _ _ _ _ _ _ _ I L M H Hn) as I2.
      pose proof (Inv_pos _ _ _ _ _ _ _ _ _ I2 L) as Pd2.
      pose proof (Z.div_mod n d ltac:(lia)) as DM. pose proof (Z.mod_pos_bound n d Pd) as MB.
      set (r := n - n / d * d) in *. assert (Hr : 0 <= r < d) by (unfold r; lia).
      destruct (Z.ltb_spec mx (q1 + d / r * (q0 + n / d * q1))) as [H2|H2].
      * exists d, r, p1, q1, (p0 + n / d * p1), (q0 + n / d * q1).
        split; [reflexivity|]. split; [exact I2|]. split; [exact H2|exact (STOP _ _ _ _ _ _ I2 H2)].
      * assert (I3 := Inv_step _ _ _ _ _ _ _ _ _ I2 L M H2 (or_intror (Z.lt_le_incl _ _ (proj2 Hr)))).
        pose proof (Z.div_mod d r ltac:(lia)) as DM2. pose proof (Z.mod_pos_bound d r Pd2) as MB2.
        apply (IH fuel _ _ _ _ _ _ I3); [right; lia| |lia].
        assert (1 <= d / r) by (apply Z.div_le_lower_bound; lia).
        rewrite Nat2Z.inj_succ, Z.pow_succ_r in Hd by lia. nia.
Qed.
Lemma farey b c p q r s mx : 0 < c -> 0 < q -> p * c - b * q = 1 -> mx < c + q -> 0 < s <= mx -> r * c <= b * s \/ p * s <= r * q.
Proof.
  intros Hc Hq E Hm Hs. destruct (Z_le_gt_dec (r * c) (b * s)) as [|H1]; [left; lia|].
  destruct (Z_le_gt_dec (p * s) (r * q)) as [|H2]; [right; lia|]. exfalso.
  assert (s = c * (p * s - r * q) + q * (r * c - b * s)) by (rewrite <- (Z.mul_1_l s) at 1; rewrite <- E; ring).
  nia.
Qed.
Local Open Scope Q_scope.
Lemma closer_of_sides (x lo hi z : Q) : lo <= x -> x <= hi -> z <= lo \/ hi <= z ->
  Qabs (lo - x) <= Qabs (z - x) \/ Qabs (hi - x) <= Qabs (z - x).
Proof.
  intros A B [H|H].
  - left. rewrite !Qabs_neg by lra. lra.
  - right. rewrite !Qabs_pos by lra. lra.
Qed.
Lemma Qden_Qred_le q : (Qden (Qred q) <= Qden q)%positive.
Proof.
  destruct q as [n d]. unfold Qred.
  pose proof (Z.ggcd_gcd n (Zpos d)) as G. pose proof (Z.ggcd_correct_divisors n (Zpos d)) as P.
  destruct (Z.ggcd n (Zpos d)) as (g & nn & dd). cbn [fst snd] in *. destruct P as (P1 & P2).
  cbn [Qden]. pose proof (Z.gcd_nonneg n (Zpos d)) as GN. assert (0 < g)%Z by (destruct (Z.eq_dec g 0) as [Z0|]; [rewrite Z0 in P2; lia|lia]).
  assert (0 < dd)%Z by (apply (Z.mul_pos_cancel_l g dd); lia).
  unfold Pos.le. change (Zpos (Z.to_pos dd) <= Zpos d)%Z. rewrite Z2Pos.id by lia. nia.
Qed.
Lemma Qred_lowest q : Z.gcd (Qnum (Qred q)) (QDen (Qred q)) = 1%Z.
Proof.
  destruct q as [n d]. unfold Qred.
  pose proof (Z.ggcd_gcd n (Zpos d)) as G. pose proof (Z.ggcd_correct_divisors n (Zpos d)) as P.
  destruct (Z.ggcd n (Zpos d)) as (g & nn & dd). cbn [fst snd] in *. destruct P as (P1 & P2).
  pose proof (Z.gcd_nonneg n (Zpos d)) as GN. assert (0 < g)%Z by (destruct (Z.eq_dec g 0) as [Z0|]; [rewrite Z0 in P2; lia|lia]).
  assert (0 < dd)%Z by (apply (Z.mul_pos_cancel_l g dd); lia).
  cbn [Qnum Qden]. rewrite Z2Pos.id by lia.
  assert (M : Z.gcd (g * nn) (g * dd) = (g * Z.gcd nn dd)%Z) by (apply Z.gcd_mul_mono_l_nonneg; lia).
  rewrite <- P1, <- P2, <- G in M. nia.
Qed.
Lemma size_bound p : (Zpos p < 2 ^ Z.of_nat (Pos.size_nat p))%Z.
Proof.
  induction p as [p IH|p IH|]; cbn [Pos.size_nat]; [| |reflexivity]; rewrite Nat2Z.inj_succ, Z.pow_succ_r by lia; lia.
Qed.
Lemma limit_closest mx x : exists y, limit_denominator mx x = Some y /\ closest mx x y.
Proof.
  unfold limit_denominator. set (x' := Qred x). assert (Ex : x' == x) by apply Qred_correct.
  assert (Ab : forall y, Qabs (y - x) == Qabs (y - x')) by (intros y; rewrite Ex; reflexivity).
  destruct (Pos.leb_spec (Qden x') mx) as [Hm|Hm].
  { exists x'. split; [reflexivity|]. split; [apply Qred_lowest|]. split; [exact Hm|]. intros z _.
    rewrite (Ab x'). setoid_replace (x' - x') with 0 by ring. apply Qabs_nonneg. }
  assert (I0 : Inv (Zpos mx) (Qnum x') (QDen x') (Qnum x') (QDen x') 0 1 1 0).
  { repeat split; try lia. exact (Qred_lowest x). }
  destruct (loop_ok (Zpos mx) (Qnum x') (QDen x') ltac:(lia) ltac:(lia) (Pos.size_nat (Qden x')) (2 * Pos.size_nat (Qden x') + 2) _ _ _ _ _ _ I0)
    as (n & d & p0 & q0 & p1 & q1 & E & I & H & Q1p).
  { left. reflexivity. }
  { apply size_bound. }
  { lia. }
  rewrite E. clear E I0. pose proof (Inv_pos _ _ _ _ _ _ _ _ _ I ltac:(lia)) as Pd.
  destruct I as (A & B & C & G & Q0 & Q1 & _ & W).
  set (k := ((Zpos mx - q0) / q1)%Z).
  assert (Hk0 : (0 <= k)%Z) by (apply Z.div_pos; lia).
  assert (Hk1 : (q0 + k * q1 <= Zpos mx)%Z) by (pose proof (Z.mul_div_le (Zpos mx - q0) q1 ltac:(lia)); unfold k; lia).
  assert (Hk2 : (Zpos mx < q0 + k * q1 + q1)%Z).
  { pose proof (Z.mul_succ_div_gt (Zpos mx - q0) q1 ltac:(lia)). unfold k. nia. }
  assert (Hka : (k < n / d)%Z) by nia.
  assert (Hn : (0 < n - k * d)%Z).
  { pose proof (Z.mul_div_le n d Pd). nia. }
  assert (Pc : (0 < q0 + k * q1)%Z).
  { destruct (Z.eq_dec q0 0) as [Z0|Z0]; [|nia]. rewrite Z0 in *.
    assert (Pq : (p0 * q1 = 1 \/ p0 * q1 = -1)%Z) by lia.
    assert (Q1one : q1 = 1%Z).
    { destruct Pq as [Pq|Pq]; [|assert ((- p0) * q1 = 1)%Z as Pq' by lia; clear Pq; rename Pq' into Pq].
      - destruct (Z.eq_mul_1 _ _ Pq) as [X|X]; rewrite X in Pq; lia.
      - destruct (Z.eq_mul_1 _ _ Pq) as [X|X]; rewrite X in Pq; lia. }
    rewrite Q1one in Hk2. rewrite Q1one. lia. }
  set (b := (p0 + k * p1)%Z) in *. set (c := (q0 + k * q1)%Z) in *.
  assert (Det : (p1 * c - b * q1 = p1 * q0 - p0 * q1)%Z) by (unfold b, c; ring).
  assert (S2 : (Qnum x' * q1 - QDen x' * p1 = - d * (p1 * q0 - p0 * q1))%Z) by (rewrite A, B; ring).
  assert (S1 : (Qnum x' * c - QDen x' * b = (n - k * d) * (p1 * q0 - p0 * q1))%Z) by (rewrite A, B; unfold b, c; ring).
  set (b1 := Qred (b # Z.to_pos c)). set (b2 := Qred (p1 # Z.to_pos q1)).
  assert (E1 : b1 == (b # Z.to_pos c)) by apply Qred_correct.
  assert (E2 : b2 == (p1 # Z.to_pos q1)) by apply Qred_correct.
  assert (LE : forall u v s t, (0 < v)%Z -> (0 < t)%Z -> (u * t <= s * v)%Z -> (u # Z.to_pos v) <= (s # Z.to_pos t)).
  { intros u v s t Pv Pt L. unfold Qle. cbn [Qnum Qden]. rewrite !Z2Pos.id by lia. exact L. }
  assert (X : x' == (Qnum x' # Z.to_pos (QDen x'))) by (destruct x' as [u v]; cbn; reflexivity).
  assert (Best : forall z, (Qden z <= mx)%positive -> Qabs (b1 - x) <= Qabs (z - x) \/ Qabs (b2 - x) <= Qabs (z - x)).
  { intros z Hz. rewrite (Ab b1), (Ab b2), (Ab z). assert (Z' : z == (Qnum z # Z.to_pos (QDen z))) by (destruct z as [u v]; cbn; reflexivity).
    assert (Hz' : (0 < QDen z <= Zpos mx)%Z) by lia.
    destruct C as [C|C]; rewrite C in *.
    - (* b/c < x < p1/q1 *)
      destruct (closer_of_sides x' b1 b2 z) as [R|R]; [| | |left; exact R|right; exact R].
      + rewrite E1, X. apply LE; [exact Pc|lia|]. lia.
      + rewrite E2, X. apply LE; [lia|lia|]. lia.
      + destruct (farey b c p1 q1 (Qnum z) (QDen z) (Zpos mx)) as [F|F]; [exact Pc|lia|lia|lia|exact Hz'| |].
        * left. rewrite E1, Z'. apply LE; [lia|exact Pc|exact F].
        * right. rewrite E2, Z'. apply LE; [lia|lia|exact F].
    - destruct (closer_of_sides x' b2 b1 z) as [R|R]; [| | |right; exact R|left; exact R].
      + rewrite E2, X. apply LE; [lia|lia|]. lia.
      + rewrite E1, X. apply LE; [lia|exact Pc|]. lia.
      + destruct (farey p1 q1 b c (Qnum z) (QDen z) (Zpos mx)) as [F|F]; [lia|exact Pc|lia|lia|exact Hz'| |].
        * left. rewrite E2, Z'. apply LE; [lia|lia|exact F].
        * right. rewrite E1, Z'. apply LE; [exact Pc|lia|exact F]. }
  assert (D1 : (Qden b1 <= mx)%positive).
  { pose proof (Qden_Qred_le (b # Z.to_pos c)) as L. fold b1 in L. cbn [Qden] in L. assert (Z.to_pos c <= mx)%positive by lia. lia. }
  assert (D2 : (Qden b2 <= mx)%positive).
  { pose proof (Qden_Qred_le (p1 # Z.to_pos q1)) as L. fold b2 in L. cbn [Qden] in L. assert (Z.to_pos q1 <= mx)%positive by lia. lia. }
  destruct (Qle_bool (Qabs (b2 - x')) (Qabs (b1 - x'))) eqn:Cmp.
  - exists b2. split; [reflexivity|]. split; [apply Qred_lowest|]. split; [exact D2|]. intros z Hz.
    apply Qle_bool_iff in Cmp. rewrite <- !Ab in Cmp.
    destruct (Best z Hz) as [R|R]; [exact (Qle_trans _ _ _ Cmp R)|exact R].
  - exists b1. split; [reflexivity|]. split; [apply Qred_lowest|]. split; [exact D1|]. intros z Hz.
    assert (Cmp' : Qabs (b1 - x) <= Qabs (b2 - x)).
    { rewrite !Ab. destruct (Qlt_le_dec (Qabs (b1 - x')) (Qabs (b2 - x'))) as [L|L]; [apply Qlt_le_weak; exact L|].
      apply Qle_bool_iff in L. rewrite L in Cmp. discriminate. }
    destruct (Best z Hz) as [R|R]; [exact R|exact (Qle_trans _ _ _ Cmp' R)].
Qed.
Lemma Qred_coprime u d : Z.gcd u (Zpos d) = 1%Z -> Qred (u # d) = (u # d).
Proof.
  intros H. unfold Qred. pose proof (Z.ggcd_gcd u (Zpos d)) as G. pose proof (Z.ggcd_correct_divisors u (Zpos d)) as P.
  destruct (Z.ggcd u (Zpos d)) as (g & nn & dd). cbn [fst snd] in *. rewrite H in G. subst g. destruct P as (P1 & P2).
  rewrite Z.mul_1_l in P1, P2. subst nn. rewrite <- P2. reflexivity.
Qed.
Lemma limit_exact mx x : (Qden (Qred x) <= mx)%positive -> limit_denominator mx x = Some (Qred x).
Proof. intros H. unfold limit_denominator. apply Pos.leb_le in H. rewrite H. reflexivity. Qed.
