(** QPSKfromBERT: the samples from the two bit patterns. *)
From Coq Require Import List NArith ZArith Arith Bool Lia Reals Lra Permutation.
From Verif Require Import Common.Py Common.Cplx Common.ListX Model.Helpers Model.Gray Model.Constellation Model.Decision Model.Prbs Model.Classes
  Spec.BitSeq Spec.BertS Proofs.PrbsQ Proofs.QamP Proofs.C01P Proofs.MapP Proofs.BertP.
Import ListNotations.

Lemma qpsk_mapping : exists mp, qam_mapping 2 = Ok mp /\
  coded_symbols mp = [qpsk_point false false; qpsk_point false true; qpsk_point true false; qpsk_point true true].
Proof.
  destruct (qam_mapping_ok 2 ltac:(lia)) as (mp & E & _). exists mp. split; [exact E|].
  rewrite (coded_scaled 2 mp (cal_symbols_qam 2) ltac:(lia) E ltac:(vm_compute; reflexivity)).
  assert (Es : cal_scaling_factor_qam 2 = 2%R) by (unfold cal_scaling_factor_qam; cbn; lra). rewrite Es.
  change (cal_symbols_qam 2) with [(-1, -1); (-1, 1); (1, -1); (1, 1)]%Z. cbn [map].
  repeat (apply (f_equal2 cons); [unfold qpsk_point, quadrature, scaled, ZtoC, Cscal; cbn [fst snd]; apply C_eq; cbn [fst snd]; lra|]). reflexivity.
Qed.
Lemma interleave_length x y : length x = length y -> length (interleave (x, y)) = 2 * length x.
Proof.
  intros H. unfold interleave. cbn [fst snd]. rewrite (concat_length_const 2).
  - rewrite map_length, combine_length. lia.
  - intros r Hr. apply in_map_iff in Hr as (q & <- & _). reflexivity.
Qed.
Lemma interleave_nth x : forall y k, length x = length y -> k < length x ->
  nth_error (interleave (x, y)) (2 * k) = Some (nth k x false) /\ nth_error (interleave (x, y)) (2 * k + 1) = Some (nth k y false).
Proof.
  induction x as [|a x IH]; intros [|b y] k L Hk; cbn [length] in *; try lia.
  unfold interleave. cbn [combine fst snd map concat app]. change (concat _) with (interleave (x, y)).
  destruct k as [|k]; [split; reflexivity|]. replace (2 * S k) with (S (S (2 * k))) by lia. cbn [nth_error Nat.add nth].
  apply IH; lia.
Qed.
Lemma modulate_interleave cs x y : cs = [qpsk_point false false; qpsk_point false true; qpsk_point true false; qpsk_point true true] ->
  length x = length y -> modulate_row cs (interleave (x, y)) = Ok (map (fun p => qpsk_point (fst p) (snd p)) (combine x y)).
Proof.
  intros -> L. unfold modulate_row. change (Nat.log2 _) with 2. cbn [Nat.eqb]. rewrite (interleave_length x y L).
  replace (2 * length x - (2 * length x) mod 2) with (2 * length x) by (rewrite (Nat.mul_comm 2), Nat.mod_mul; lia).
  rewrite firstn_all2 by (rewrite interleave_length; auto). unfold interleave. rewrite (reshape_concat 2); [|lia|].
  2: intros r Hr; apply in_map_iff in Hr as (q & <- & _); reflexivity.
  cbn [bind fst snd]. rewrite map_map. unfold fancy_get. clear L. revert y. induction x as [|a x IH]; intros [|b y]; try reflexivity.
  cbn [combine map mapM]. destruct a, b; cbn [fst snd block_index combine map rev seq app fold_right Nat.pow Nat.add Nat.mul getn nth_error bind];
    rewrite IH; reflexivity.
Qed.

Lemma port_ok draws n nmodes order shift invert : nmodes <= 2 -> nmodes <= length order ->
  (forall i o, i < nmodes -> nth_error order i = Some o -> In (N.to_nat o) prbs_orders) ->
  exists rows, bert_port draws n nmodes order shift invert = Ok rows /\ length rows = nmodes /\
    forall i o, i < nmodes -> nth_error order i = Some o -> exists out row, make_prbs_extXOR o n SeedNone = Ok out /\ nth_error rows i = Some row /\
      length out = n /\ length row = n /\ forall k, k < n -> nth k row false = xorb invert (delayed out shift k).
Proof.
  intros H2 Ho Hp.
  assert (Hmk : forall i o, i < nmodes -> nth_error order i = Some o -> exists row, make_prbs_extXOR o n SeedNone = Ok row /\ length row = n).
  { intros i o Hi Ei. specialize (Hp i o Hi Ei). rewrite <- (N2Nat.id o). rewrite make_none by assumption.
    destruct (c08 (N.to_nat o) n (2 ^ N.of_nat (N.to_nat o) - 1) Hp) as (row & Er & Lr & _).
    { assert (2 ^ N.of_nat (N.to_nat o) <> 0)%N by (apply N.pow_nonzero; lia). lia. }
    exists row. split; assumption. }
  assert (Hs : forall i s, i < nmodes -> nth_error [SeedNone; SeedNone] i = Some s -> s = SeedNone).
  { intros [|[|i]] s Hi E; cbn in E; try congruence. destruct i; discriminate. }
  destruct (c10_given draws n nmodes [SeedNone; SeedNone] order Ho ltac:(cbn; lia)) as (rows & E & L & R).
  { intros i o s Hi Eo Es. rewrite (Hs i s Hi Es). destruct (Hmk i o Hi Eo) as (row & Er & _). exists row. exact Er. }
  unfold bert_port. rewrite E. cbn [bind].
  exists (if invert then map (map negb) (map (roll shift) rows) else map (roll shift) rows). split; [reflexivity|].
  split; [destruct invert; rewrite !map_length; exact L|].
  intros i o Hi Eo. destruct (Hmk i o Hi Eo) as (out & Eout & Lo).
  destruct (R i o SeedNone Hi Eo) as (row & Er & Em). { destruct i as [|[|i]]; [reflexivity|reflexivity|lia]. }
  assert (row = out) by congruence. subst row.
  exists out, (if invert then map negb (roll shift out) else roll shift out). split; [exact Eout|].
  split. { destruct invert; repeat (erewrite map_nth_error; [reflexivity|]); exact Er. }
  split; [exact Lo|]. split; [destruct invert; rewrite ?map_length, roll_length; exact Lo|].
  intros k Hk.
  assert (Rk : nth k (roll shift out) false = delayed out shift k).
  { unfold delayed. pose proof (roll_nth shift out k ltac:(lia)) as Rn.
    destruct (nth_error (roll shift out) k) as [v|] eqn:Ev; [|apply nth_error_None in Ev; rewrite roll_length in Ev; lia].
    rewrite (nth_error_nth _ _ _ Ev). symmetry in Rn. rewrite (nth_error_nth _ _ _ Rn). reflexivity. }
  destruct invert; cbn [xorb].
  - rewrite (nth_indep _ false (negb false)) by (rewrite map_length, roll_length; lia). rewrite map_nth, Rk. reflexivity.
  - rewrite Rk. destruct (delayed out shift k); reflexivity.
Qed.

Lemma bert_samples dI dQ n nmodes orders shifts inv : nmodes <= 2 -> nmodes <= length (fst orders) -> nmodes <= length (snd orders) ->
  (forall i o, i < nmodes -> nth_error (fst orders) i = Some o \/ nth_error (snd orders) i = Some o -> In (N.to_nat o) prbs_orders) ->
  exists bits samples, QPSKfromBERT dI dQ n nmodes orders shifts inv = Ok (bits, samples) /\ length bits = nmodes /\ length samples = nmodes /\
    forall m oI oQ, m < nmodes -> nth_error (fst orders) m = Some oI -> nth_error (snd orders) m = Some oQ ->
    exists pI pQ b x, make_prbs_extXOR oI n SeedNone = Ok pI /\ make_prbs_extXOR oQ n SeedNone = Ok pQ /\
      nth_error bits m = Some b /\ nth_error samples m = Some x /\ length b = 2 * n /\ length x = n /\
      forall k, k < n ->
        let i := xorb (fst inv) (delayed pI (fst shifts) k) in let q := xorb (snd inv) (delayed pQ (snd shifts) k) in
        nth_error b (2 * k) = Some i /\ nth_error b (2 * k + 1) = Some q /\ nth_error x k = Some (qpsk_point i q).
Proof.
  intros H2 HI HQ Hp. destruct qpsk_mapping as (mp & Emp & Ec).
  destruct (port_ok dI n nmodes (fst orders) (fst shifts) (fst inv) H2 HI ltac:(intros i o Hi Ei; apply (Hp i o Hi); left; exact Ei)) as (rI & EI & LI & RI).
  destruct (port_ok dQ n nmodes (snd orders) (snd shifts) (snd inv) H2 HQ ltac:(intros i o Hi Ei; apply (Hp i o Hi); right; exact Ei)) as (rQ & EQ & LQ & RQ).
  unfold QPSKfromBERT. rewrite Emp, EI, EQ. cbn [bind]. unfold modulate, modulate_arr.
  assert (Lrow : forall p, In p (combine rI rQ) -> length (fst p) = n /\ length (snd p) = n).
  { intros (x, y) Hp'. apply (In_nth_error) in Hp' as (m & Em). assert (Hm : m < nmodes).
    { assert (nth_error (combine rI rQ) m <> None) by congruence. apply nth_error_Some in H. rewrite combine_length in H. lia. }
    assert (Ex : nth_error rI m = Some x /\ nth_error rQ m = Some y).
    { clear -Em. revert rQ m Em. induction rI as [|a l IH]; intros [|b r] [|m] E; cbn in *; try discriminate; [injection E as -> ->; auto|apply IH; exact E]. }
    destruct (nth_error (fst orders) m) as [oI|] eqn:EoI; [|apply nth_error_None in EoI; lia].
    destruct (nth_error (snd orders) m) as [oQ|] eqn:EoQ; [|apply nth_error_None in EoQ; lia].
    destruct (RI m oI Hm EoI) as (? & r1 & _ & E1 & _ & L1 & _). destruct (RQ m oQ Hm EoQ) as (? & r2 & _ & E2 & _ & L2 & _).
    cbn [fst snd]. split; destruct Ex; congruence. }
  exists (map interleave (combine rI rQ)), (map (fun p => map (fun q => qpsk_point (fst q) (snd q)) (combine (fst p) (snd p))) (combine rI rQ)).
  split.
  { assert (Em : mapM (modulate_row (coded_symbols mp)) (map interleave (combine rI rQ))
                 = Ok (map (fun p => map (fun q => qpsk_point (fst q) (snd q)) (combine (fst p) (snd p))) (combine rI rQ))).
    { revert Lrow. clear -Ec. induction (combine rI rQ) as [|(x, y) l IH]; intros Lr; [reflexivity|].
      cbn [map mapM]. rewrite (modulate_interleave _ x y Ec) by (destruct (Lr (x, y) (or_introl eq_refl)); cbn [fst snd] in *; congruence).
      cbn [bind]. rewrite IH by (intros p Hp; apply Lr; right; exact Hp). reflexivity. }
    rewrite Em. reflexivity. }
  split; [rewrite map_length, combine_length; lia|]. split; [rewrite map_length, combine_length; lia|].
  intros m oI oQ Hm EoI EoQ.
  destruct (RI m oI Hm EoI) as (pI & x & MI & E1 & _ & L1 & N1). destruct (RQ m oQ Hm EoQ) as (pQ & y & MQ & E2 & _ & L2 & N2).
  assert (Ecmb : nth_error (combine rI rQ) m = Some (x, y)).
  { clear -E1 E2. revert rQ m E1 E2. induction rI as [|a l IH]; intros [|b r] [|m] A B; cbn in *; try discriminate; [congruence|apply IH; assumption]. }
  exists pI, pQ, (interleave (x, y)), (map (fun q => qpsk_point (fst q) (snd q)) (combine x y)).
  split; [exact MI|]. split; [exact MQ|]. split; [erewrite map_nth_error by exact Ecmb; reflexivity|].
  split; [erewrite map_nth_error by exact Ecmb; reflexivity|]. split; [rewrite interleave_length; lia|].
  split; [rewrite map_length, combine_length; lia|].
  intros k Hk. cbv zeta. rewrite <- N1, <- N2 by exact Hk. destruct (interleave_nth x y k ltac:(lia) ltac:(lia)) as (A & B).
  split; [exact A|]. split; [exact B|].
  erewrite map_nth_error; [|instantiate (1 := (nth k x false, nth k y false))]; [reflexivity|].
  assert (Lc : k < length (combine x y)) by (rewrite combine_length; lia).
  rewrite <- combine_nth by lia. apply nth_error_nth'. exact Lc.
Qed.
