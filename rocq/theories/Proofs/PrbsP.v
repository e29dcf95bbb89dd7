From Coq Require Import List NArith Arith Bool Lia ZArith FinFun ZifyBool ZifyNat ZifyN.
From Verif Require Import Common.Py Common.ListX Model.Prbs Spec.BitSeq.
Import ListNotations.
Local Open Scope N_scope.

(** ** number theory *)
Definition primeN (p : N) : Prop := 1 < p /\ forall d, (d | p) -> d = 1 \/ d = p.

Fixpoint nodiv (fuel : nat) (d p : N) : bool :=
  match fuel with
  | O => p <? d * d
  | S f => negb (p mod d =? 0) && nodiv f (d + 2) p
  end.

Lemma nodiv_spec fuel : forall d p, nodiv fuel d p = true -> 0 < d ->
  forall e k, e = d + 2 * k -> e * e <= p -> ~ (e | p).
Proof.
  induction fuel as [|f IH]; cbn [nodiv]; intros d p H Hd e k He Hle Hdiv.
  - apply N.ltb_lt in H. nia.
  - apply andb_prop in H as [H1 H2].
    destruct (N.eq_dec k 0) as [->|Hk].
    + rewrite N.mul_0_r, N.add_0_r in He. subst e.
      apply N.mod_divide in Hdiv; [|lia].
      rewrite Hdiv in H1. discriminate.
    + eapply (IH (d + 2) p H2); [lia| |exact Hle|exact Hdiv].
      instantiate (1 := k - 1). lia.
Qed.

Lemma nodiv_prime fuel p : 3 < p -> N.odd p = true -> nodiv fuel 3 p = true -> primeN p.
Proof.
  intros Hp Hodd Hn.
  assert (Hno : forall e, 1 < e -> e * e <= p -> ~ (e | p)).
  { intros e He Hle Hdiv.
    destruct (N.even e) eqn:Ee.
    - apply N.even_spec in Ee as [k ->]. destruct Hdiv as [q ->].
      rewrite N.odd_mul, N.odd_mul in Hodd. change (N.odd 2) with false in Hodd.
      rewrite andb_false_l, andb_false_r in Hodd. discriminate.
    - assert (Eo : N.odd e = true) by (rewrite <- N.negb_even, Ee; reflexivity).
      apply N.odd_spec in Eo as [k Hk].
      eapply (nodiv_spec _ _ _ Hn); [lia| |exact Hle|exact Hdiv].
      instantiate (1 := k - 1). lia. }
  split; [lia|]. intros d Hd.
  pose proof Hd as [q Hq].
  destruct (N.eq_dec d 1); [now left|]. right.
  destruct (N.eq_dec q 1) as [->|Hq1]; [lia|]. exfalso.
  assert (d <> 0) by (intros ->; lia).
  assert (q <> 0) by (intros ->; lia).
  destruct (N.le_gt_cases (d * d) p) as [H1|H1].
  - exact (Hno d ltac:(lia) H1 Hd).
  - apply (Hno q); [lia|nia|]. exists d. lia.
Qed.

Definition prodN (l : list N) : N := fold_right N.mul 1 l.

Lemma prime_factor_in ps : Forall primeN ps -> forall c, 1 < c -> (c | prodN ps) ->
  exists p, In p ps /\ (p | c).
Proof.
  induction 1 as [|p ps [Hp1 Hp] _ IH]; cbn; intros c Hc Hd.
  - apply N.divide_1_r in Hd. lia.
  - destruct (Hp (N.gcd c p) (N.gcd_divide_r _ _)) as [E|E].
    + destruct (IH c Hc) as (q & Hq & Hqc).
      { apply N.gauss with p; assumption. }
      exists q. split; [now right|assumption].
    + exists p. split; [now left|]. rewrite <- E at 1. apply N.gcd_divide_l.
Qed.

(** ** cycle length of an iterated map *)
Section Cycle.
Variable T : N -> N.
Let it (n x : N) := N.iter n T x.

Lemma it_add a b x : it (a + b) x = it a (it b x).
Proof. unfold it. apply N.iter_add. Qed.

Lemma it_mul a x : it a x = x -> forall k, it (k * a) x = x.
Proof.
  intros H k. induction k as [|k IH] using N.peano_ind.
  - reflexivity.
  - rewrite N.mul_succ_l, it_add, H. exact IH.
Qed.

Lemma cycle_divides ps x d : Forall primeN ps ->
  it (prodN ps) x = x ->
  (forall p, In p ps -> it (prodN ps / p) x <> x) ->
  0 < d -> it d x = x -> (prodN ps | d).
Proof.
  intros Hps HP Hno Hd Hx.
  set (P := prodN ps) in *. set (g := N.gcd d P).
  assert (HP0 : P <> 0).
  { subst P. clear - Hps. induction Hps as [|p ps [H _] _ IH]; cbn [prodN fold_right]; [lia|]; fold (prodN ps) in *; nia. }
  assert (Hg : it g x = x).
  { destruct (N.gcd_bezout_pos d P Hd) as (a & b & E).
    fold g in E.
    assert (E1 : it (g + b * P) x = x) by (rewrite <- E; apply it_mul; exact Hx).
    rewrite it_add, it_mul in E1 by exact HP. exact E1. }
  destruct (N.gcd_divide_r d P) as [c Hc]. fold g in Hc.
  destruct (N.eq_dec c 1) as [->|Hc1].
  - rewrite N.mul_1_l in Hc. rewrite Hc. apply N.gcd_divide_l.
  - exfalso. destruct (prime_factor_in ps Hps c) as (p & Hin & [e He]).
    + assert (c <> 0) by (intros ->; lia). lia.
    + fold P. rewrite Hc. exists g. lia.
    + apply (Hno p Hin).
      assert (p <> 0) by (intros ->; lia).
      replace (P / p) with (e * g).
      * apply it_mul. exact Hg.
      * rewrite Hc, He. replace (e * p * g) with (e * g * p) by lia.
        symmetry. apply N.div_mul. assumption.
Qed.
End Cycle.

(** ** GF(2) matrices as lists of columns *)
Fixpoint mapply (M : list N) (x : N) : N :=
  match M with
  | [] => 0
  | c :: M' => N.lxor (if N.odd x then c else 0) (mapply M' (N.div2 x))
  end.
Definition mmul (A B : list N) : list N := map (mapply A) B.
Definition madd (A B : list N) : list N := map (fun p => N.lxor (fst p) (snd p)) (combine A B).
Fixpoint mpow (M : list N) (p : positive) : list N :=
  match p with
  | xH => M
  | xO p' => let A := mpow M p' in mmul A A
  | xI p' => let A := mpow M p' in mmul M (mmul A A)
  end.
Definition matof (n : nat) (f : N -> N) : list N := map (fun j => f (2 ^ N.of_nat j)) (seq 0 n).

Definition linear (f : N -> N) : Prop := forall x y, f (N.lxor x y) = N.lxor (f x) (f y).
Definition inside (n : nat) (f : N -> N) : Prop := forall x, x < 2 ^ N.of_nat n -> f x < 2 ^ N.of_nat n.

Lemma linear_0 f : linear f -> f 0 = 0.
Proof. intros H. pose proof (H 0 0) as E. rewrite N.lxor_0_r in E. rewrite E. apply N.lxor_nilpotent. Qed.

Lemma split_bit0 x k : x * 2 ^ k = N.lxor (if N.odd x then 2 ^ k else 0) (N.div2 x * 2 ^ (k + 1)).
Proof.
  apply N.bits_inj. intros j. rewrite N.lxor_spec, <- !N.shiftl_mul_pow2.
  destruct (N.lt_ge_cases j k) as [H|H].
  - rewrite !N.shiftl_spec_low by lia. destruct (N.odd x); rewrite ?N.bits_0; [|reflexivity].
    rewrite N.pow2_bits_false by lia. reflexivity.
  - rewrite N.shiftl_spec_high' by lia.
    destruct (N.eq_dec j k) as [->|Hne].
    + rewrite N.shiftl_spec_low by lia. rewrite N.sub_diag, N.bit0_odd.
      destruct (N.odd x); [rewrite N.pow2_bits_true|rewrite N.bits_0]; reflexivity.
    + rewrite N.shiftl_spec_high' by lia.
      rewrite N.div2_spec, N.shiftr_spec by lia.
      replace (j - (k + 1) + 1) with (j - k) by lia.
      destruct (N.odd x); rewrite ?N.bits_0; [rewrite N.pow2_bits_false by lia|]; destruct (N.testbit x (j - k)); reflexivity.
Qed.

Lemma mapply_matof_from f n : linear f -> forall k x, x < 2 ^ N.of_nat n ->
  mapply (map (fun j => f (2 ^ N.of_nat j)) (seq k n)) x = f (x * 2 ^ N.of_nat k).
Proof.
  intros Hf. induction n as [|n IH]; intros k x Hx.
  - cbn [seq map mapply]. replace x with 0 by (cbn in Hx; lia). rewrite N.mul_0_l, linear_0 by assumption. reflexivity.
  - cbn [seq map mapply]. rewrite IH.
    + rewrite (split_bit0 x), Hf. replace (N.of_nat (S k)) with (N.of_nat k + 1) by lia.
      f_equal. destruct (N.odd x); [reflexivity|]. symmetry. apply linear_0. assumption.
    + rewrite N.div2_div. apply N.div_lt_upper_bound; [lia|].
      replace (N.of_nat (S n)) with (N.succ (N.of_nat n)) in Hx by lia.
      rewrite N.pow_succ_r' in Hx. lia.
Qed.

Lemma mapply_matof f n x : linear f -> x < 2 ^ N.of_nat n -> mapply (matof n f) x = f x.
Proof.
  intros Hf Hx. unfold matof. rewrite mapply_matof_from by assumption.
  cbn [N.of_nat]. rewrite N.pow_0_r, N.mul_1_r. reflexivity.
Qed.

Lemma mmul_matof n f g : linear f -> linear g -> inside n g ->
  mmul (matof n f) (matof n g) = matof n (fun x => f (g x)).
Proof.
  intros Hf Hg Hi. unfold mmul. unfold matof at 2 3. rewrite map_map.
  apply map_ext_in. intros j Hj. apply in_seq in Hj.
  apply mapply_matof; [assumption|]. apply Hi. apply N.pow_lt_mono_r; lia.
Qed.

Lemma linear_comp f g : linear f -> linear g -> linear (fun x => f (g x)).
Proof. intros Hf Hg x y. rewrite Hg, Hf. reflexivity. Qed.
Lemma inside_comp n f g : inside n f -> inside n g -> inside n (fun x => f (g x)).
Proof. intros Hf Hg x Hx. apply Hf, Hg, Hx. Qed.

Lemma linear_iter f p : linear f -> linear (fun x => Pos.iter f x p).
Proof. intros Hf. induction p; cbn; intros x y; repeat rewrite IHp; rewrite ?Hf; reflexivity. Qed.
Lemma inside_iter n f p : inside n f -> inside n (fun x => Pos.iter f x p).
Proof.
  intros Hf. induction p; cbn; intros x Hx; repeat first [apply IHp | apply Hf]; assumption.
Qed.

Lemma mpow_matof n f p : linear f -> inside n f -> mpow (matof n f) p = matof n (fun x => Pos.iter f x p).
Proof.
  intros Hf Hi. induction p; cbn [mpow]; rewrite ?IHp.
  - rewrite (mmul_matof n (fun x => Pos.iter f x p) (fun x => Pos.iter f x p)), mmul_matof;
      auto using linear_iter, inside_iter, (linear_comp (fun x => Pos.iter f x p)), (inside_comp n (fun x => Pos.iter f x p)).
  - rewrite (mmul_matof n (fun x => Pos.iter f x p) (fun x => Pos.iter f x p));
      auto using linear_iter, inside_iter.
  - reflexivity.
Qed.

Lemma matof_eq n f g : linear f -> linear g -> matof n f = matof n g -> forall x, x < 2 ^ N.of_nat n -> f x = g x.
Proof. intros Hf Hg E x Hx. rewrite <- (mapply_matof f n x Hf Hx), E. apply mapply_matof; assumption. Qed.

Lemma linear_id : linear (fun x => x).
Proof. intros x y. reflexivity. Qed.

(** check by matrix powers that every nonzero state lies on a cycle of length P *)
Definition order_check (n : nat) (f : N -> N) (P : positive) (ps : list N) : bool :=
  let M := matof n f in
  let I := matof n (fun x => x) in
  let eqm A B := forallb (fun p => fst p =? snd p) (combine A B) && (length A =? length B)%nat in
  eqm (mpow M P) I &&
  forallb (fun p => match N.pos P / p with
                    | N0 => false
                    | Npos m => eqm (mpow (madd (mpow M m) I) P) I
                    end) ps.

Lemma eqm_eq (A B : list N) :
  forallb (fun p => fst p =? snd p) (combine A B) && (length A =? length B)%nat = true -> A = B.
Proof.
  intros H. apply andb_prop in H as [H1 H2]. apply Nat.eqb_eq in H2.
  revert B H1 H2. induction A as [|a A IH]; intros [|b B] H1 H2; cbn in *; try discriminate; [reflexivity|].
  apply andb_prop in H1 as [E H1]. apply N.eqb_eq in E. f_equal; [assumption|]. apply IH; [assumption|lia].
Qed.

Lemma lxor_lt n x y : x < 2 ^ n -> y < 2 ^ n -> N.lxor x y < 2 ^ n.
Proof.
  intros Hx Hy.
  assert (E : N.lxor x y = N.lxor x y mod 2 ^ n).
  { apply N.bits_inj. intros j. destruct (N.lt_ge_cases j n) as [H|H].
    - now rewrite N.mod_pow2_bits_low.
    - rewrite N.mod_pow2_bits_high, N.lxor_spec by assumption.
      rewrite <- (N.mod_small x (2 ^ n)), <- (N.mod_small y (2 ^ n)) by assumption.
      now rewrite !N.mod_pow2_bits_high by assumption. }
  rewrite E. apply N.mod_lt. apply N.pow_nonzero. lia.
Qed.

Lemma madd_matof n f g : madd (matof n f) (matof n g) = matof n (fun x => N.lxor (f x) (g x)).
Proof.
  unfold madd, matof. generalize (seq 0 n) as l. induction l as [|a l IH]; cbn; [reflexivity|]. now rewrite IH.
Qed.

Lemma order_check_sound n f P ps : linear f -> inside n f -> order_check n f P ps = true ->
  (forall x, x < 2 ^ N.of_nat n -> N.iter (N.pos P) f x = x) /\
  (forall p x, In p ps -> x < 2 ^ N.of_nat n -> x <> 0 -> N.iter (N.pos P / p) f x <> x).
Proof.
  intros Hf Hi H. unfold order_check in H. apply andb_prop in H as [H1 H2].
  apply eqm_eq in H1. rewrite mpow_matof in H1 by assumption. split.
  - intros x Hx. cbn [N.iter].
    apply (matof_eq n _ _ (linear_iter f P Hf) linear_id H1 x Hx).
  - intros p x Hin Hx Hx0. rewrite forallb_forall in H2. specialize (H2 p Hin).
    destruct (N.pos P / p) as [|m] eqn:Em; [discriminate|].
    apply eqm_eq in H2. rewrite mpow_matof in H2 by assumption.
    rewrite madd_matof in H2. cbn [N.iter]. intros E. apply Hx0.
    set (A := fun x => N.lxor (Pos.iter f x m) x) in *.
    assert (HA : linear A).
    { intros a b. unfold A. rewrite (linear_iter f m Hf a b).
      rewrite !N.lxor_assoc. f_equal. rewrite <- !N.lxor_assoc. f_equal. apply N.lxor_comm. }
    assert (HAi : inside n A).
    { intros a Ha. unfold A. apply lxor_lt; [|assumption]. now apply (inside_iter n f m Hi). }
    rewrite mpow_matof in H2 by assumption.
    pose proof (matof_eq n _ _ (linear_iter A P HA) linear_id H2 x Hx) as EA. cbn beta in EA.
    assert (A0 : A x = 0) by (unfold A; rewrite E; apply N.lxor_nilpotent).
    assert (HI0 : forall q, Pos.iter A 0 q = 0).
    { intros q. apply (linear_0 (fun x => Pos.iter A x q)). now apply linear_iter. }
    assert (HI1 : forall q, Pos.iter A x q = 0).
    { intros q. induction q using Pos.peano_ind; cbn; [exact A0|].
      rewrite Pos.iter_succ, IHq. apply (linear_0 A HA). }
    rewrite HI1 in EA. now symmetry.
Qed.

(** ** the register as a linear map *)
Definition tapf (n a b x : N) : bool := xorb (N.testbit x (n - a)) (N.testbit x (n - b)).
Definition lstep (n a b x : N) : N := N.lxor (if tapf n a b x then 2 ^ (n - 1) else 0) (N.shiftr x 1).

Lemma land_pow2_eqb x k : (N.land x (N.shiftl 1 k) =? 0) = negb (N.testbit x k).
Proof.
  rewrite N.shiftl_1_l. destruct (N.testbit x k) eqn:E.
  - apply N.eqb_neq. intros H. assert (F : N.testbit (N.land x (2 ^ k)) k = false) by (rewrite H; apply N.bits_0).
    rewrite N.land_spec, E, N.pow2_bits_true in F. discriminate.
  - apply N.eqb_eq. apply N.bits_inj. intros j. rewrite N.land_spec, N.bits_0.
    destruct (N.eq_dec j k) as [->|H]; [now rewrite E|].
    rewrite N.pow2_bits_false by lia. now rewrite andb_false_r.
Qed.

Lemma tap_xor_2 n a b x : tap_xor n [a; b] x = N.b2n (tapf n a b x).
Proof.
  unfold tap_xor, tapf. cbn [fold_left]. rewrite !land_pow2_eqb, !negb_involutive.
  destruct (N.testbit x (n - a)), (N.testbit x (n - b)); reflexivity.
Qed.

Lemma lfsr_step_eq n a b x : 1 <= n -> x < 2 ^ n -> lfsr_step n [a; b] x = lstep n a b x.
Proof.
  intros Hn Hx. unfold lfsr_step, lstep. rewrite tap_xor_2.
  assert (Hs : N.shiftr x 1 < 2 ^ (n - 1)).
  { rewrite N.shiftr_div_pow2. apply N.div_lt_upper_bound; [cbn; lia|].
    rewrite <- N.pow_add_r. replace (1 + (n - 1)) with n by lia. assumption. }
  destruct (tapf n a b x); cbn [N.b2n].
  - rewrite N.shiftl_1_l. apply N.add_nocarry_lxor. apply N.bits_inj. intros j.
    rewrite N.land_spec, N.bits_0. destruct (N.eq_dec j (n - 1)) as [->|H].
    + rewrite <- (N.mod_small _ _ Hs), N.mod_pow2_bits_high by lia. apply andb_false_r.
    + rewrite N.pow2_bits_false by lia. reflexivity.
  - rewrite N.shiftl_0_l, N.lxor_0_l. reflexivity.
Qed.

Lemma lstep_linear n a b : linear (lstep n a b).
Proof.
  intros x y. unfold lstep, tapf. rewrite !N.lxor_spec, N.shiftr_lxor.
  destruct (N.testbit x (n - a)), (N.testbit x (n - b)), (N.testbit y (n - a)), (N.testbit y (n - b)); cbn [xorb];
    apply N.bits_inj; intros j; rewrite !N.lxor_spec, ?N.bits_0;
    destruct (N.testbit (2 ^ (n - 1)) j), (N.testbit (N.shiftr x 1) j), (N.testbit (N.shiftr y 1) j); reflexivity.
Qed.

Lemma lstep_lt n a b x : 1 <= n -> x < 2 ^ n -> lstep n a b x < 2 ^ n.
Proof.
  intros Hn Hx. unfold lstep. apply lxor_lt.
  - destruct (tapf n a b x); [apply N.pow_lt_mono_r; lia|].
    apply N.neq_0_lt_0, N.pow_nonzero. lia.
  - rewrite N.shiftr_div_pow2. eapply N.le_lt_trans; [|exact Hx]. apply N.div_le_upper_bound; [cbn; lia|].
    change (2 ^ 1) with 2. lia.
Qed.

Lemma lstep_inside n a b : 1 <= N.of_nat n -> inside n (lstep (N.of_nat n) a b).
Proof. intros Hn x Hx. now apply lstep_lt. Qed.

(** bits of the register after a step *)
Lemma lstep_bit n a b x j : 1 <= n -> x < 2 ^ n ->
  N.testbit (lstep n a b x) j = if j <? n - 1 then N.testbit x (j + 1) else if j =? n - 1 then tapf n a b x else false.
Proof.
  intros Hn Hx. unfold lstep. rewrite N.lxor_spec, N.shiftr_spec by lia.
  destruct (N.ltb_spec j (n - 1)) as [H|H].
  - replace (N.testbit (if tapf n a b x then 2 ^ (n - 1) else 0) j) with false; [apply xorb_false_l|].
    destruct (tapf n a b x); [now rewrite N.pow2_bits_false by lia|now rewrite N.bits_0].
  - assert (E : N.testbit x (j + 1) = false).
    { rewrite <- (N.mod_small _ _ Hx). apply N.mod_pow2_bits_high. lia. }
    rewrite E, xorb_false_r. destruct (N.eqb_spec j (n - 1)) as [->|Hne].
    + destruct (tapf n a b x); [apply N.pow2_bits_true|apply N.bits_0].
    + destruct (tapf n a b x); [apply N.pow2_bits_false; lia|apply N.bits_0].
Qed.

(** ** the output sequence *)
Definition reg (n a b s : N) (i : nat) : N := Nat.iter i (lstep n a b) s.

Lemma reg_lt n a b s i : 1 <= n -> s < 2 ^ n -> reg n a b s i < 2 ^ n.
Proof.
  intros Hn Hs. induction i as [|i IH]; [assumption|].
  change (lstep n a b (reg n a b s i) < 2 ^ n). now apply lstep_lt.
Qed.

Lemma reg_shift n a b s i j : reg n a b s (i + j) = reg n a b (reg n a b s j) i.
Proof.
  induction i as [|i IH]; [reflexivity|].
  change (lstep n a b (reg n a b s (i + j)) = lstep n a b (reg n a b (reg n a b s j) i)).
  now rewrite IH.
Qed.

Lemma reg_bit n a b s : 1 <= n -> s < 2 ^ n -> forall i j, N.of_nat i + N.of_nat j < n ->
  N.testbit (reg n a b s i) (N.of_nat j) = N.testbit s (N.of_nat (i + j)).
Proof.
  intros Hn Hs i. induction i as [|i IH]; intros j H.
  - reflexivity.
  - change (reg n a b s (S i)) with (lstep n a b (reg n a b s i)).
    rewrite lstep_bit by (try apply reg_lt; assumption).
    replace (N.of_nat j <? n - 1) with true by (symmetry; apply N.ltb_lt; lia).
    replace (N.of_nat j + 1) with (N.of_nat (S j)) by lia. rewrite IH by lia. f_equal. lia.
Qed.

Definition pbits (n a b s : N) (N : nat) : list bool := map (fun i => tapf n a b (reg n a b s i)) (seq 0 N).

Lemma prbs_ext_reg n a b : 1 <= n -> forall N s, s < 2 ^ n ->
  map (fun x => negb (x =? 0)) (prbs_ext s [a; b] n N) = pbits n a b s N.
Proof.
  intros Hn N. induction N as [|N IH]; intros s Hs; [reflexivity|].
  cbn [prbs_ext map]. unfold pbits. cbn [seq map].
  rewrite tap_xor_2. f_equal.
  - cbn. destruct (tapf n a b s); reflexivity.
  - rewrite lfsr_step_eq by assumption. rewrite IH by (now apply lstep_lt).
    unfold pbits. rewrite <- seq_shift, map_map. apply map_ext. intros i. f_equal.
    replace (S i) with (i + 1)%nat by lia. now rewrite reg_shift.
Qed.

(** the full bit stream: bit i of (seed bits ++ outputs) is bit 0 of register i, and bit j of
    register i is stream bit i+j *)
Definition sbit (n a b s : N) (i : nat) : bool := N.testbit (reg n a b s i) 0.

Lemma reg_sbit n a b s i j : 1 <= n -> s < 2 ^ n -> N.of_nat j < n ->
  N.testbit (reg n a b s i) (N.of_nat j) = sbit n a b s (i + j).
Proof.
  intros Hn Hs Hj. unfold sbit. replace (i + j)%nat with (j + i)%nat by lia. rewrite reg_shift.
  change 0 with (N.of_nat 0). rewrite (reg_bit n a b (reg n a b s i) Hn ltac:(now apply reg_lt) j 0%nat ltac:(lia)).
  f_equal. f_equal. lia.
Qed.

Lemma out_sbit n a b s i : 1 <= n -> s < 2 ^ n ->
  tapf n a b (reg n a b s i) = sbit n a b s (N.to_nat n + i).
Proof.
  intros Hn Hs. pose proof (reg_sbit n a b s (S i) (N.to_nat (n - 1)) Hn Hs ltac:(lia)) as E.
  change (reg n a b s (S i)) with (lstep n a b (reg n a b s i)) in E.
  rewrite lstep_bit in E by (try apply reg_lt; assumption).
  rewrite N2Nat.id in E.
  rewrite N.ltb_irrefl, N.eqb_refl in E. rewrite E. f_equal. lia.
Qed.

Lemma seeded_sbit n a b s N : 1 <= n -> s < 2 ^ n ->
  seeded (N.to_nat n) s (pbits n a b s N) = map (sbit n a b s) (seq 0 (N.to_nat n + N)).
Proof.
  intros Hn Hs. unfold seeded, pbits. rewrite seq_app, map_app. f_equal.
  - apply map_ext_in. intros j Hj. apply in_seq in Hj.
    change s with (reg n a b s 0) at 1. rewrite reg_sbit by (try assumption; lia). reflexivity.
  - cbn [Nat.add]. apply nth_error_ext_lt; [now rewrite !map_length, !seq_length|].
    rewrite map_length, seq_length. intros i Hi. rewrite !nth_error_map_seq by assumption.
    rewrite out_sbit by assumption. reflexivity.
Qed.

Lemma sbit_rec n a b s i : 1 <= n -> s < 2 ^ n -> 1 <= a <= n -> 1 <= b <= n -> (N.to_nat n <= i)%nat ->
  sbit n a b s i = xorb (sbit n a b s (i - N.to_nat a)) (sbit n a b s (i - N.to_nat b)).
Proof.
  intros Hn Hs Ha Hb Hi. replace i with (N.to_nat n + (i - N.to_nat n))%nat at 1 by lia.
  rewrite <- out_sbit by assumption. unfold tapf.
  replace (n - a) with (N.of_nat (N.to_nat (n - a))) by lia.
  replace (n - b) with (N.of_nat (N.to_nat (n - b))) by lia.
  rewrite !reg_sbit by (try assumption; lia). f_equal; f_equal; lia.
Qed.

(** ** the four supported registers *)
Definition good (n a b : N) (P : positive) (ps : list N) : Prop :=
  1 <= n /\ 1 <= a <= n /\ 1 <= b <= n /\ N.pos P = 2 ^ n - 1 /\ prodN ps = N.pos P /\ Forall primeN ps /\
  order_check (N.to_nat n) (lstep n a b) P ps = true.

Lemma prime_small : primeN 7 /\ primeN 31 /\ primeN 151 /\ primeN 47 /\ primeN 127.
Proof.
  split; [|split; [|split; [|split]]].
  - apply (nodiv_prime 0); reflexivity.
  - apply (nodiv_prime 2); reflexivity.
  - apply (nodiv_prime 5); reflexivity.
  - apply (nodiv_prime 2); reflexivity.
  - apply (nodiv_prime 5); reflexivity.
Qed.
Lemma prime_178481 : primeN 178481.
Proof. apply (nodiv_prime 250); [reflexivity..|vm_compute; reflexivity]. Qed.
Lemma prime_m31 : primeN 2147483647.
Proof. apply (nodiv_prime (N.to_nat 23200)); [reflexivity..|vm_compute; reflexivity]. Qed.

Lemma good_7 : good 7 7 6 127 [127].
Proof.
  unfold good. split; [lia|]; split; [lia|]; split; [lia|]; split; [reflexivity|]; split; [reflexivity|]; split;
    [|vm_compute; reflexivity].
  constructor; [apply prime_small|constructor].
Qed.
Lemma good_15 : good 15 15 14 32767 [7; 31; 151].
Proof.
  unfold good. split; [lia|]; split; [lia|]; split; [lia|]; split; [reflexivity|]; split; [reflexivity|]; split;
    [|vm_compute; reflexivity].
  constructor; [apply prime_small|constructor; [apply prime_small|constructor; [apply prime_small|constructor]]].
Qed.
Lemma good_23 : good 23 23 18 8388607 [47; 178481].
Proof.
  unfold good. split; [lia|]; split; [lia|]; split; [lia|]; split; [reflexivity|]; split; [reflexivity|]; split;
    [|vm_compute; reflexivity].
  constructor; [apply prime_small|constructor; [apply prime_178481|constructor]].
Qed.
Lemma good_31 : good 31 31 28 2147483647 [2147483647].
Proof.
  unfold good. split; [lia|]; split; [lia|]; split; [lia|]; split; [reflexivity|]; split; [reflexivity|]; split;
    [|vm_compute; reflexivity].
  constructor; [apply prime_m31|constructor].
Qed.

Section Good.
Context {n a b : N} {P : positive} {ps : list N} (G : good n a b P ps).
Variable s : N.
Hypothesis Hs : s < 2 ^ n.
Notation r := (reg n a b s).

Local Lemma g_n : 1 <= n. Proof. apply G. Qed.
Local Lemma g_chk : order_check (N.to_nat n) (lstep n a b) P ps = true. Proof. apply G. Qed.
Local Lemma g_in : inside (N.to_nat n) (lstep n a b).
Proof. intros x Hx. rewrite N2Nat.id in *. apply lstep_lt; [apply g_n|assumption]. Qed.

Lemma reg_iter i : r i = N.iter (N.of_nat i) (lstep n a b) s.
Proof. induction i as [|i IH]; [reflexivity|]. rewrite Nat2N.inj_succ, N.iter_succ, <- IH. reflexivity. Qed.

Lemma iter_P x : x < 2 ^ n -> N.iter (N.pos P) (lstep n a b) x = x.
Proof.
  intros Hx. apply (order_check_sound _ _ _ _ (lstep_linear n a b) g_in g_chk). now rewrite N2Nat.id.
Qed.

Lemma reg_period i : r (i + Pos.to_nat P) = r i.
Proof.
  rewrite Nat.add_comm, reg_shift.
  replace (reg n a b (r i) (Pos.to_nat P)) with (N.iter (N.pos P) (lstep n a b) (r i)).
  - apply iter_P. apply reg_lt; [apply g_n|assumption].
  - cbn [N.iter]. rewrite Pos2Nat.inj_iter. reflexivity.
Qed.

Lemma reg_mul_period k : r (k * Pos.to_nat P) = s.
Proof. induction k as [|k IH]; [reflexivity|]. cbn [Nat.mul]. rewrite Nat.add_comm, reg_period. exact IH. Qed.

Hypothesis Hs0 : s <> 0.

Lemma reg_nonzero i : r i <> 0.
Proof.
  intros H. apply Hs0.
  pose proof (reg_mul_period i) as E.
  assert (i <= i * Pos.to_nat P)%nat.
  { pose proof (Pos2Nat.is_pos P). clear - H0. nia. }
  replace (i * Pos.to_nat P)%nat with ((i * Pos.to_nat P - i) + i)%nat in E by lia.
  rewrite reg_shift, H in E. rewrite <- E.
  generalize (i * Pos.to_nat P - i)%nat as k. intros k.
  induction k as [|k IH]; [reflexivity|].
  change (reg n a b 0 (S k)) with (lstep n a b (reg n a b 0 k)). rewrite IH. apply linear_0, lstep_linear.
Qed.

Lemma iter_cycle d x : x < 2 ^ n -> x <> 0 -> 0 < d -> N.iter d (lstep n a b) x = x -> (N.pos P | d).
Proof.
  intros Hx Hx0 Hd Hi.
  destruct G as (Hn & Ha & Hb & HP & Hp & Hps & Hc).
  rewrite <- Hp. eapply cycle_divides; [exact Hps| | |exact Hd|exact Hi].
  - rewrite Hp. now apply iter_P.
  - intros p Hin. rewrite Hp.
    apply (order_check_sound _ _ _ _ (lstep_linear n a b) g_in Hc); try assumption. now rewrite N2Nat.id.
Qed.

Lemma reg_eq_mod i j : (i < j)%nat -> r i = r j -> (Nat.divide (Pos.to_nat P) (j - i))%nat.
Proof.
  intros Hij E. replace j with ((j - i) + i)%nat in E by lia. rewrite reg_shift in E.
  assert (D : (N.pos P | N.of_nat (j - i))).
  { apply (iter_cycle _ (r i)); [apply reg_lt; [apply g_n|assumption]|apply reg_nonzero|lia|].
    transitivity (reg n a b (r i) (j - i)); [|now symmetry].
    generalize (r i) as x, (j - i)%nat as k. clear. intros x k.
    induction k as [|k IH]; [reflexivity|]. rewrite Nat2N.inj_succ, N.iter_succ, IH. reflexivity. }
  destruct D as [k Hk]. exists (N.to_nat k). lia.
Qed.

Lemma reg_inj i j : (i < Pos.to_nat P)%nat -> (j < Pos.to_nat P)%nat -> r i = r j -> i = j.
Proof.
  intros Hi Hj E. destruct (lt_eq_lt_dec i j) as [[H|H]|H]; [|assumption|].
  - destruct (reg_eq_mod i j H E) as [k Hk]. destruct k; nia.
  - destruct (reg_eq_mod j i H (eq_sym E)) as [k Hk]. destruct k; nia.
Qed.

Lemma reg_surj y : y <> 0 -> y < 2 ^ n -> exists i, (i < Pos.to_nat P)%nat /\ r i = y.
Proof.
  intros Hy0 Hy.
  assert (HP : N.pos P = 2 ^ n - 1) by apply G.
  set (f := fun i => (N.to_nat (r i) - 1)%nat).
  assert (Hb : bFun (Pos.to_nat P) f).
  { intros i _. unfold f. pose proof (reg_lt n a b s i g_n Hs). pose proof (reg_nonzero i). lia. }
  assert (Hinj : bInjective (Pos.to_nat P) f).
  { intros i j Hi Hj E. apply reg_inj; try assumption. unfold f in E.
    pose proof (reg_nonzero i). pose proof (reg_nonzero j). lia. }
  destruct (proj1 (bInjective_bSurjective Hb) Hinj (N.to_nat y - 1)%nat) as (i & Hi & E); [lia|].
  exists i. split; [assumption|]. unfold f in E. pose proof (reg_nonzero i). lia.
Qed.
End Good.
