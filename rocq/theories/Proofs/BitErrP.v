(** Bit error counting and small utilities *)
From Coq Require Import List ZArith Arith Bool Reals Lia Lra.
From Verif Require Import Common.Py Common.Cplx Model.Sync Model.BitErr Spec.BitErrS.
Import ListNotations.
Local Open Scope R_scope.

Lemma errors_shift a b n : length (filter (fun i => xorb (nth i a false) (nth i b false)) (seq 0 n))
  = length (filter (fun i => xorb (nth (i - 1) a false) (nth (i - 1) b false)) (seq 1 n)).
Proof.
  rewrite <- (seq_shift n 0). induction (seq 0 n) as [|i l IH]; [reflexivity|]. cbn [map filter].
  rewrite Nat.sub_succ, Nat.sub_0_r. destruct (xorb _ _); cbn [length]; now rewrite IH.
Qed.
Lemma errors_cons x y a b n : bit_errors (S n) (x :: a) (y :: b) = ((if xorb x y then 1 else 0) + bit_errors n a b)%nat.
Proof.
  unfold bit_errors. rewrite (errors_shift a b n).
  assert (E : filter (fun i => xorb (nth i (x :: a) false) (nth i (y :: b) false)) (seq 1 n)
            = filter (fun i => xorb (nth (i - 1) a false) (nth (i - 1) b false)) (seq 1 n)).
  { apply filter_ext_in. intros i Hi. apply in_seq in Hi. destruct i; [lia|]. cbn [nth]. now rewrite Nat.sub_succ, Nat.sub_0_r. }
  rewrite <- E. change (seq 0 (S n)) with (0%nat :: seq 1 n). cbn [filter].
  change (nth 0 (x :: a) false) with x. change (nth 0 (y :: b) false) with y. destruct (xorb x y); reflexivity.
Qed.
Lemma errors_count a b : length a = length b ->
  length (filter (fun p => negb (Bool.eqb (fst p) (snd p))) (combine a b)) = bit_errors (length b) a b.
Proof.
  revert b. induction a as [|x a IH]; intros [|y b] H; cbn [length] in H; try discriminate; [reflexivity|].
  cbn [length combine filter fst snd]. rewrite errors_cons, <- IH by lia. destruct x, y; reflexivity.
Qed.
Lemma ber_count rx tx thr : length rx = length tx -> (0 < length tx)%nat ->
  let e := bit_errors (length tx) rx tx in
  cal_ber_syncd rx tx thr =
  if Rle_dec (INR e) (thr * INR (length tx)) then Ok (INR e / INR (length tx), e, length tx) else Err ValueError.
Proof.
  intros H Hn e. unfold cal_ber_syncd. rewrite H, Nat.eqb_refl. cbn [negb]. destruct (Nat.eqb_spec (length tx) 0); [lia|].
  rewrite errors_count by exact H. fold e. assert (P : 0 < INR (length tx)) by (apply lt_0_INR; lia).
  assert (D : INR e = INR e / INR (length tx) * INR (length tx)) by (field; lra).
  destruct (Rlt_dec thr (INR e / INR (length tx))) as [L|L]; destruct (Rle_dec (INR e) (thr * INR (length tx))) as [K|K]; try reflexivity.
  - exfalso. apply (Rmult_lt_compat_r (INR (length tx))) in L; [|exact P]. lra.
  - exfalso. apply Rnot_lt_le in L. apply (Rmult_le_compat_r (INR (length tx))) in L; lra.
Qed.
Lemma errors_self n a : bit_errors n a a = 0%nat.
Proof. unfold bit_errors. induction (seq 0 n) as [|i l IH]; [reflexivity|]. cbn [filter]. now rewrite xorb_nilpotent. Qed.
Lemma ber_same tx thr : (0 < length tx)%nat -> 0 <= thr -> cal_ber_syncd tx tx thr = Ok (0, 0%nat, length tx).
Proof.
  intros H T. rewrite ber_count by (reflexivity || exact H). rewrite errors_self. assert (P : 0 < INR (length tx)) by (apply lt_0_INR; lia).
  destruct (Rle_dec (INR 0) (thr * INR (length tx))) as [_|K]; [|exfalso; apply K; cbn [INR]; nra].
  replace (INR 0 / INR (length tx)) with 0 by (cbn [INR]; unfold Rdiv; ring). reflexivity.
Qed.
Lemma errors_inverted a b : length a = length b ->
  (bit_errors (length b) (map negb a) b + bit_errors (length b) a b = length b)%nat.
Proof.
  revert b. induction a as [|x a IH]; intros [|y b] H; cbn [length] in H; try discriminate; [reflexivity|].
  cbn [length map]. rewrite !errors_cons. specialize (IH b ltac:(lia)). destruct x, y; cbn [xorb negb]; lia.
Qed.
Lemma ber_empty thr : cal_ber_syncd [] [] thr = Err ZeroDivisionError.
Proof. reflexivity. Qed.
Lemma ber_nosync_never rx tx out : cal_ber_nosyncd rx tx <> Ok out.
Proof. unfold cal_ber_nosyncd. destruct (find_sequence_offset _ _); discriminate. Qed.
Lemma convolve_full_length x y : x <> [] -> y <> [] -> length (convolve_full x y) = (length x + length y - 1)%nat.
Proof. destruct x, y; try contradiction. intros _ _. unfold convolve_full. now rewrite map_length, seq_length. Qed.
Lemma ber_nosync_unbound rx tx : rx <> [] -> tx <> [] -> cal_ber_nosyncd rx tx = Err UnboundLocalError.
Proof.
  intros Hr Ht. unfold cal_ber_nosyncd, find_sequence_offset.
  set (ac := convolve_full _ _). destruct ac as [|z ac'] eqn:E.
  - exfalso. assert (length ac = 0)%nat by (rewrite E; reflexivity). unfold ac in H. rewrite convolve_full_length in H.
    + unfold bits_to_C in H. rewrite rev_length, !map_length in H. destruct rx, tx; try contradiction. cbn [length] in H. lia.
    + destruct tx; [contradiction|discriminate].
    + destruct rx; [contradiction|]. cbn [bits_to_C map rev]. intros K. apply app_eq_nil in K. destruct K as [_ K]. discriminate.
  - reflexivity.
Qed.

Lemma factorial_spec n : exists f, factorial (Z.of_nat n) = Ok f /\ is_factorial n f.
Proof.
  unfold factorial. destruct (Z.ltb_spec (Z.of_nat n) 0); [lia|]. rewrite Nat2Z.id. eexists. split; [reflexivity|].
  induction n as [|n IH]; [constructor|]. cbn [factorial_rec]. constructor. apply IH. lia.
Qed.
Lemma factorial_negative n : (n < 0)%Z -> factorial n = Err RecursionError.
Proof. intros H. unfold factorial. destruct (Z.ltb_spec n 0); [reflexivity|lia]. Qed.

Lemma ceil_exact z : ceilR (IZR z) = z.
Proof.
  unfold ceilR. rewrite <- opp_IZR. destruct (base_Int_part (IZR (- z))) as [A B].
  assert (Int_part (IZR (- z)) <= - z)%Z by now apply le_IZR.
  assert (- z < Int_part (IZR (- z)) + 1)%Z by (apply lt_IZR; rewrite plus_IZR; lra). lia.
Qed.
Lemma linspacestep_spec start step N : step <> 0 -> exists l, linspacestep start step N = Ok l /\
  length l = Z.to_nat N /\ forall i, (i < Z.to_nat N)%nat -> nth_error l i = Some (start + INR i * step).
Proof.
  intros Hs. unfold linspacestep, arange. destruct (Req_EM_T step 0); [contradiction|].
  replace ((start + IZR N * step - start) / step) with (IZR N) by (field; exact Hs). rewrite ceil_exact.
  eexists. split; [reflexivity|]. split; [now rewrite map_length, seq_length|]. intros i Hi.
  rewrite (map_nth_error (fun i => start + INR i * step) i (seq 0 (Z.to_nat N)) (d := i)); [reflexivity|].
  rewrite nth_error_nth' with (d := 0%nat) by (now rewrite seq_length). now rewrite seq_nth.
Qed.
Lemma iq_interleave_never idat qdat nbits out : convert_iqtosinglebitstream idat qdat nbits <> Ok out.
Proof. unfold convert_iqtosinglebitstream. destruct (_ =? 0)%Z; discriminate. Qed.
Lemma iq_interleave_type idat qdat nbits : (0 < nbits)%Z -> convert_iqtosinglebitstream idat qdat nbits = Err TypeError.
Proof.
  intros H. unfold convert_iqtosinglebitstream. pose proof (Z.div_mod nbits 2 ltac:(lia)) as D. pose proof (Z.mod_pos_bound nbits 2 ltac:(lia)).
  destruct (Z.eqb_spec (nbits mod 2) 0) as [E|E].
  - destruct (Z.eqb_spec (nbits / 2) 0); [lia|reflexivity].
  - destruct (Z.eqb_spec (nbits / 2 + 1) 0); [lia|reflexivity].
Qed.
Lemma filter_length_le' {A} (f : A -> bool) l : (length (filter f l) <= length l)%nat.
Proof. induction l as [|a l IH]; [constructor|]. cbn [filter length]. destruct (f a); cbn [length]; lia. Qed.
Lemma bit_errors_le n a b : (bit_errors n a b <= n)%nat.
Proof. unfold bit_errors. pose proof (filter_length_le' (fun i => xorb (nth i a false) (nth i b false)) (seq 0 n)) as K. now rewrite seq_length in K. Qed.
Lemma ber_inverted rx tx out e n : length rx = length tx -> cal_ber_syncd rx tx 1 = Ok (out, e, n) ->
  exists out', cal_ber_syncd (map negb rx) tx 1 = Ok (out', (n - e)%nat, n) /\ out + out' = 1.
Proof.
  intros H E. assert (Hn : (0 < length tx)%nat).
  { destruct tx as [|y tx]; [|cbn; lia]. destruct rx; [discriminate|discriminate]. }
  assert (P : 0 < INR (length tx)) by (apply lt_0_INR; lia).
  rewrite ber_count in E by assumption. pose proof (errors_inverted rx tx H) as K.
  destruct (Rle_dec _ _); [|discriminate]. assert (e = bit_errors (length tx) rx tx) by congruence. assert (n = length tx) by congruence.
  assert (out = INR (bit_errors (length tx) rx tx) / INR (length tx)) by congruence. subst e n out.
  rewrite ber_count by (rewrite ?map_length; assumption).
  pose proof (bit_errors_le (length tx) (map negb rx) tx) as L. apply le_INR in L.
  destruct (Rle_dec (INR (bit_errors (length tx) (map negb rx) tx)) (1 * INR (length tx))) as [_|N]; [|lra].
  eexists. split; [replace (length tx - bit_errors (length tx) rx tx)%nat with (bit_errors (length tx) (map negb rx) tx) by lia; reflexivity|].
  apply (f_equal INR) in K. rewrite plus_INR in K. unfold Rdiv. rewrite <- Rmult_plus_distr_r. rewrite Rplus_comm, K. apply Rinv_r. lra.
Qed.
