(** Time-domain hybrid signals: the two ways to make one. *)
From Coq Require Import String List ZArith QArith Qabs Reals Bool Arith Lia Lra Psatz ZifyBool ZifyNat ZifyN.
From Verif Require Import Common.Py Common.ListX Common.Cplx Model.Gray Model.Constellation Model.Fractions Model.Hybrid
  Spec.Closest Spec.HybridS Spec.Geometry Proofs.FractionsP Proofs.HybridP Proofs.HybridQ.
Import ListNotations.

Lemma closest_unit mx x u d : (0 <= x)%Q -> (x <= 1)%Q -> closest mx x (u # d) -> (0 <= u <= Zpos d)%Z.
Proof.
  intros H0 H1 (_ & _ & Hc). split.
  - destruct (Z.le_gt_cases 0 u) as [?|L]; [assumption|exfalso].
    specialize (Hc 0%Q ltac:(cbn; lia)). assert (N : (u # d < 0)%Q) by (unfold Qlt; cbn; lia).
    rewrite Qabs_neg in Hc by lra. rewrite Qabs_neg in Hc by lra. lra.
  - destruct (Z.le_gt_cases u (Zpos d)) as [?|L]; [assumption|exfalso].
    specialize (Hc 1%Q ltac:(cbn; lia)). assert (N : (1 < u # d)%Q) by (unfold Qlt; cbn; lia).
    rewrite Qabs_pos in Hc by lra. rewrite Qabs_pos in Hc by lra. lra.
Qed.

Lemma fractions_unit fr : (0 <= fr)%Q -> (fr <= 1)%Q -> exists a b : nat, (0 < a + b)%nat /\
  cal_fractions fr = Ok (Z.of_nat (a + b), Z.of_nat a, Z.of_nat b) /\ closest 1000000 fr (Z.of_nat b # Pos.of_nat (a + b)).
Proof.
  intros H0 H1. unfold cal_fractions, fraction_of. destruct (limit_closest 1000000 fr) as ([u d] & E & Hc). rewrite E. cbn [bind Qnum Qden].
  pose proof (closest_unit _ _ _ _ H0 H1 Hc) as Hu. exists (Z.to_nat (Zpos d - u)), (Z.to_nat u). split; [lia|].
  assert (Ed : (Z.to_nat (Zpos d - u) + Z.to_nat u = Pos.to_nat d)%nat) by lia. rewrite Ed, Pos2Nat.id. split.
  - f_equal. f_equal; [f_equal|]; lia.
  - rewrite Z2Nat.id by lia. exact Hc.
Qed.
Lemma fractions_exact a b : (0 < a + b)%nat -> Z.gcd (Z.of_nat a) (Z.of_nat b) = 1%Z -> (Pos.of_nat (a + b) <= 1000000)%positive ->
  cal_fractions (Z.of_nat b # Pos.of_nat (a + b)) = Ok (Z.of_nat (a + b), Z.of_nat a, Z.of_nat b).
Proof.
  intros Hp Hg Hm. assert (Hd : Zpos (Pos.of_nat (a + b)) = Z.of_nat (a + b)) by lia.
  assert (G : Z.gcd (Z.of_nat b) (Zpos (Pos.of_nat (a + b))) = 1%Z).
  { rewrite Hd, Nat2Z.inj_add. rewrite <- (Z.mul_1_l (Z.of_nat b)) at 2. rewrite Z.add_comm, Z.gcd_comm.
    replace (1 * Z.of_nat b + Z.of_nat a)%Z with (Z.of_nat a + 1 * Z.of_nat b)%Z by lia. rewrite Z.gcd_comm, Z.gcd_add_mult_diag_r.
    rewrite Z.gcd_comm. exact Hg. }
  unfold cal_fractions, fraction_of. assert (R : Qred (Z.of_nat b # Pos.of_nat (a + b)) = (Z.of_nat b # Pos.of_nat (a + b))) by (now apply Qred_coprime).
  rewrite limit_exact by (rewrite R; exact Hm). rewrite R. cbn [bind Qnum Qden]. rewrite Hd. f_equal. f_equal. f_equal. lia.
Qed.

Local Open Scope nat_scope.
Lemma scale_down_rows s rows m : (forall r, In r rows -> length r = m) -> forall r, In r (scale_down s rows) -> length r = m.
Proof. intros H r Hr. unfold scale_down in Hr. apply in_map_iff in Hr as (r' & <- & Hr'). rewrite map_length. auto. Qed.
Lemma scale_down_length s rows : length (scale_down s rows) = length rows.
Proof. apply map_length. Qed.

(** the constructor *)
Lemma tdhqam_frames gen1 gen2 cs1 cs2 s modes n fr : (0 <= fr)%Q -> (fr <= 1)%Q ->
  calculate_power_ratio cs1 cs2 "dist" = Ok s ->
  (forall m, length (gen1 m) = modes /\ forall r, In r (gen1 m) -> length r = m) ->
  (forall m, length (gen2 m) = modes /\ forall r, In r (gen2 m) -> length r = m) ->
  exists a b h, 0 < a + b /\ closest 1000000 fr (Z.of_nat b # Pos.of_nat (a + b)) /\
    tdhqam gen1 gen2 cs1 cs2 n fr "dist" = Ok h /\ hy_ratio h = s /\ length (hy_samples h) = modes /\
    hy_M1 h = gen1 (n / (a + b) * a) /\
    hy_M2 h = map (map (fun z : C => Cscal (/ sqrt s) z)) (gen2 (n / (a + b) * b)) /\
    forall i r1 r2, nth_error (hy_M1 h) i = Some r1 -> nth_error (hy_M2 h) i = Some r2 ->
      exists row, nth_error (hy_samples h) i = Some row /\ frames_of_two (n / (a + b)) a b row r1 r2.
Proof.
  intros H0 H1 Hs G1 G2. destruct (fractions_unit fr H0 H1) as (a & b & Hp & Ef & Hc). exists a, b.
  set (q := n / (a + b)).
  destruct (G1 (q * a)) as (L1 & R1). destruct (G2 (q * b)) as (L2 & R2).
  destruct (assemble_ok q a b (gen1 (q * a)) (scale_down s (gen2 (q * b))) Hp) as (out & Eo & Lo & Ho).
  { now rewrite scale_down_length, L1, L2. } { exact R1. } { now apply scale_down_rows. }
  exists {| hy_samples := out; hy_M1 := gen1 (q * a); hy_M2 := scale_down s (gen2 (q * b)); hy_ratio := s |}.
  split; [exact Hp|]. split; [exact Hc|]. split.
  - unfold tdhqam. rewrite Ef. cbn [bind]. rewrite <- Nat2Z.inj_div. fold q. rewrite <- Nat2Z.inj_mod.
    pose proof (Nat.div_mod_eq n (a + b)) as E. fold q in E.
    assert (En : (if (0 <? Z.of_nat (n mod (a + b)))%Z then (Z.of_nat (a + b) * Z.of_nat q)%Z else Z.of_nat n) = Z.of_nat (q * (a + b))).
    { destruct (Z.ltb_spec 0 (Z.of_nat (n mod (a + b)))); lia. }
    rewrite En. rewrite <- !Nat2Z.inj_mul.
    replace ((Z.of_nat (q * a) <? 0)%Z || (Z.of_nat (q * b) <? 0)%Z) with false by (symmetry; apply Bool.orb_false_iff; split; apply Z.ltb_ge; apply Nat2Z.is_nonneg).
    rewrite Hs, !Nat2Z.id. cbn [bind]. rewrite Eo. reflexivity.
  - cbn [hy_ratio hy_samples hy_M1 hy_M2]. split; [reflexivity|]. split; [congruence|]. split; [reflexivity|]. split; [reflexivity|exact Ho].
Qed.

(** from two arrays that fill whole frames *)
Lemma arrays_frames a b n syms1 cs1 syms2 cs2 s fr : 0 < a + b -> cal_fractions fr = Ok (Z.of_nat (a + b), Z.of_nat a, Z.of_nat b) ->
  calculate_power_ratio cs1 cs2 "dist" = Ok s -> length syms1 = length syms2 ->
  (forall r, In r syms1 -> length r = n * a) -> (forall r, In r syms2 -> length r = n * b) ->
  exists h, from_symbol_arrays syms1 cs1 (n * a) syms2 cs2 (n * b) fr "dist" = Ok h /\ hy_ratio h = s /\ hy_M1 h = syms1 /\
    hy_M2 h = map (map (fun z : C => Cscal (/ sqrt s) z)) syms2 /\ length (hy_samples h) = length syms1 /\
    forall i r1 r2, nth_error (hy_M1 h) i = Some r1 -> nth_error (hy_M2 h) i = Some r2 ->
      exists row, nth_error (hy_samples h) i = Some row /\ frames_of_two n a b row r1 r2.
Proof.
  intros Hp Ef Hs Hl R1 R2.
  destruct (assemble_ok n a b syms1 (scale_down s syms2) Hp) as (out & Eo & Lo & Ho).
  { now rewrite scale_down_length. } { exact R1. } { now apply scale_down_rows. }
  exists {| hy_samples := out; hy_M1 := syms1; hy_M2 := scale_down s syms2; hy_ratio := s |}. split.
  - unfold from_symbol_arrays. rewrite Hl, Nat.eqb_refl, Ef, Hs. cbn [bind negb].
    assert (En : ((Z.of_nat (n * a) + Z.of_nat (n * b)) / Z.of_nat (a + b))%Z = Z.of_nat n).
    { rewrite <- Nat2Z.inj_add, <- Nat.mul_add_distr_l, <- Nat2Z.inj_div, Nat.div_mul by lia. reflexivity. }
    rewrite En. rewrite <- !Nat2Z.inj_mul, !Z.ltb_irrefl. cbn [orb bind]. rewrite <- ?Nat2Z.inj_mul. rewrite Eo. reflexivity.
  - cbn [hy_ratio hy_samples hy_M1 hy_M2]. repeat (split; [reflexivity || assumption|]). exact Ho.
Qed.

(** arrays that do not fill whole frames are not truncated *)
Lemma arrays_bad a b syms1 cs1 cols1 syms2 cs2 cols2 s fr : 0 < a -> 0 < b -> cal_fractions fr = Ok (Z.of_nat (a + b), Z.of_nat a, Z.of_nat b) ->
  calculate_power_ratio cs1 cs2 "dist" = Ok s -> length syms1 = length syms2 -> 0 < length syms1 ->
  (forall r, In r syms1 -> length r = cols1) -> (forall r, In r syms2 -> length r = cols2) ->
  cols1 <> 1 -> cols2 <> 1 -> (forall n, ~ (cols1 = n * a /\ cols2 = n * b)) ->
  from_symbol_arrays syms1 cs1 cols1 syms2 cs2 cols2 fr "dist" = Err ValueError.
Proof.
  intros Ha Hb Ef Hs Hl Hpos R1 R2 N1 N2 Hno. unfold from_symbol_arrays. rewrite Hl, Nat.eqb_refl, Ef, Hs. cbn [bind negb].
  replace ((Z.of_nat a =? 0)%Z || (Z.of_nat b =? 0)%Z) with false by lia.
  match goal with |- bind ?x _ = _ => assert (Ex : exists n, x = Ok (Z.of_nat n)) end.
  { rewrite <- Nat2Z.inj_add, <- !Nat2Z.inj_div. destruct (_ || _); [|eauto]. exists (Nat.min (cols1 / a) (cols2 / b)). now rewrite Nat2Z.inj_min. }
  destruct Ex as (n & Ex). rewrite Ex. cbn [bind]. rewrite <- Nat2Z.inj_mul.
  destruct syms1 as [|r1 syms1]; [cbn in Hpos; lia|]. destruct syms2 as [|r2 syms2]; [discriminate|].
  rewrite (assemble_bad n a b _ _ r1 (map (fun z : C => Cscal (/ sqrt s) z) r2)); [reflexivity|lia|reflexivity|reflexivity| | | |].
  - rewrite (R1 r1) by (now left). assumption.
  - rewrite map_length, (R2 r2) by (now left). assumption.
  - rewrite map_length, (R1 r1), (R2 r2) by (now left). specialize (Hno n). lia.
  - intros r Hr. rewrite (R1 r Hr). symmetry. apply R1. now left.
Qed.

(** one format only and symbols of both *)
Lemma arrays_zero syms1 cs1 cols1 syms2 cs2 cols2 s fr : calculate_power_ratio cs1 cs2 "dist" = Ok s -> length syms1 = length syms2 ->
  0 < cols1 -> 0 < cols2 -> (fr == 0 \/ fr == 1)%Q ->
  from_symbol_arrays syms1 cs1 cols1 syms2 cs2 cols2 fr "dist" = Err ZeroDivisionError.
Proof.
  intros Hs Hl H1 H2 Hfr. unfold from_symbol_arrays. rewrite Hl, Nat.eqb_refl. cbn [negb].
  assert (Ef : cal_fractions fr = Ok (1, 1, 0)%Z \/ cal_fractions fr = Ok (1, 0, 1)%Z).
  { unfold cal_fractions, fraction_of. destruct Hfr as [E|E]; apply Qred_complete in E; (rewrite limit_exact; rewrite E; [|cbn; lia]); [now left|now right]. }
  destruct Ef as [Ef|Ef]; rewrite Ef, Hs; cbn [bind]; rewrite Z.div_1_r, Z.mul_0_r, Z.mul_1_r; cbn [Z.eqb orb].
  - replace (Z.of_nat cols1 <? Z.of_nat cols1 + Z.of_nat cols2)%Z with true by lia. reflexivity.
  - replace (Z.of_nat cols2 <? Z.of_nat cols1 + Z.of_nat cols2)%Z with true by lia. rewrite Bool.orb_true_r. reflexivity.
Qed.
