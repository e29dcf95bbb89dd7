(** Round trips of the two signal classes and the 17-bit counterexample. *)
From Coq Require Import List ZArith NArith Bool Lia Permutation FinFun ZifyBool ZifyNat ZifyN Reals Lra Psatz Arith.
From Verif Require Import Common.Py Common.ListX Common.Cplx Model.Gray Model.Constellation Model.Decision
  Spec.Bits Spec.Geometry Proofs.GrayP Proofs.ConstP Proofs.DecisionP Proofs.MapP Proofs.QamP Proofs.PskP.
Import ListNotations.

Lemma qam_NoDup k mp : 1 <= k -> qam_mapping k = Ok mp -> NoDup (coded_symbols mp).
Proof.
  intros Hk Hmp; destruct (qam_mapping_ok k Hk) as [mp' [Hmp' Hok]]. rewrite Hmp in Hmp'; injection Hmp' as <-.
  eapply Permutation_NoDup; [symmetry; apply Hok|apply syms_NoDup; assumption].
Qed.
Lemma psk_coded_NoDup k mp : 1 <= k -> psk_mapping k = Ok mp -> NoDup (coded_symbols mp).
Proof.
  intros Hk Hmp; destruct (psk_mapping_ok k Hk) as [mp' [Hmp' Hok]]. rewrite Hmp in Hmp'; injection Hmp' as <-.
  eapply Permutation_NoDup; [symmetry; apply Hok|apply psk_NoDup; assumption].
Qed.

Lemma qam_roundtrip k rows : 1 <= k <= 16 ->
  exists mp out, qam_mapping k = Ok mp /\ modulate mp rows = Ok out /\
    Forall2 (fun bits syms => length syms = length bits / k /\
                              forall s, In s syms -> In s (coded_symbols mp)) rows out /\
    demodulate mp out = Ok (map (fun bits => firstn (length bits / k * k) bits) rows).
Proof.
  intros Hk; destruct (qam_mapping_ok k) as [mp [Hmp Hok]]; [lia|].
  assert (Hnd := qam_NoDup k mp ltac:(lia) Hmp).
  destruct Hok as [_ [Hl [_ [_ [He _]]]]].
  destruct (roundtrip mp k rows Hk Hnd Hl He) as [out [H1 [H2 H3]]]. exists mp, out; auto.
Qed.
Lemma psk_roundtrip k rows : 1 <= k <= 16 ->
  exists mp out, psk_mapping k = Ok mp /\ modulate mp rows = Ok out /\
    Forall2 (fun bits syms => length syms = length bits / k /\
                              forall s, In s syms -> In s (coded_symbols mp)) rows out /\
    demodulate mp out = Ok (map (fun bits => firstn (length bits / k * k) bits) rows).
Proof.
  intros Hk; destruct (psk_mapping_ok k) as [mp [Hmp Hok]]; [lia|].
  assert (Hnd := psk_coded_NoDup k mp ltac:(lia) Hmp).
  destruct Hok as [_ [Hl [_ [_ [He _]]]]].
  destruct (roundtrip mp k rows Hk Hnd Hl He) as [out [H1 [H2 H3]]]. exists mp, out; auto.
Qed.

Lemma all_ones_value n : bits_value (repeat true n) = (2 ^ N.of_nat n - 1)%N.
Proof.
  induction n as [|n IH]; [reflexivity|]. cbn [repeat]. rewrite bits_value_cons, repeat_length, IH.
  rewrite (Nat2N.inj_succ n), N.pow_succ_r'. assert (2 ^ N.of_nat n <> 0)%N by (apply N.pow_nonzero; lia). lia.
Qed.

(** 17 bits per symbol: the stored index 131071 wraps to 65535 and the first bit is lost *)
Lemma qam17_wraps : exists mp out,
  qam_mapping 17 = Ok mp /\ modulate mp [repeat true 17] = Ok out /\
  demodulate mp out = Ok [false :: repeat true 16].
Proof.
  destruct (qam_mapping_ok 17) as [mp [Hmp Hok]]; [lia|].
  assert (Hnd := qam_NoDup 17 mp ltac:(lia) Hmp).
  destruct Hok as [_ [Hl [_ [_ [He _]]]]].
  destruct (modulate_row_ok (coded_symbols mp) 17 (repeat true 17)) as [syms [Ho [_ Hs]]]; [lia|assumption|].
  exists mp, [syms]; split; [assumption|]; split; [unfold modulate, modulate_arr; cbn [mapM]; rewrite Ho; reflexivity|].
  rewrite repeat_length, Nat.div_same, Nat.mul_1_l in Hs by lia.
  change (firstn 17 (repeat true 17)) with (repeat true 17) in Hs.
  change (chunks 17 (repeat true 17)) with [repeat true 17] in Hs. cbn [map] in Hs.
  set (i := block_index 17 (repeat true 17)) in *.
  assert (Hi : N.of_nat i = 131071%N).
  { unfold i; rewrite block_index_value by reflexivity. reflexivity. }
  assert (Hu : N.of_nat (uint16 i) = 65535%N).
  { unfold uint16. rewrite N2Nat.id, Hi. reflexivity. }
  clearbody i.
  rewrite (demodulate_points mp 17 [syms] [[i]]); try assumption; [|lia|].
  - cbn [map concat]. rewrite app_nil_r.
    assert (Eu : uint16 i = block_index 17 (false :: repeat true 16)).
    { apply Nat2N.inj. rewrite Hu, block_index_value by reflexivity. reflexivity. }
    rewrite Eu, encode_block by reflexivity. reflexivity.
  - constructor; [|constructor]. split; [exact Hs|].
    intros j [<-|[]]. assert (N.of_nat (uint16 i) < N.of_nat (2 ^ 17))%N; [|lia].
    rewrite Hu, pow2_nat_N. reflexivity.
Qed.

Lemma encoding_value k m i : i < 2 ^ k -> nth_error (encoding_table k m) i = Some (encode_row k i) ->
  bits_value (encode_row k i) = N.of_nat i.
Proof.
  intros Hi _. rewrite <- (block_index_value k _ (encode_row_length k i)). f_equal.
  (* encode_row is injective on [0,2^k) since label bits determine the number *)
  assert (E := encode_block k _ (encode_row_length k i)).
  set (j := block_index k (encode_row k i)) in *.
  assert (Hj : j < 2 ^ k) by (apply block_index_lt, encode_row_length).
  apply Nat2N.inj, N.bits_inj; intros b.
  destruct (N.lt_ge_cases b (N.of_nat k)) as [Hb|Hb].
  - assert (Hn : nth_error (encode_row k j) (k - 1 - N.to_nat b) = nth_error (encode_row k i) (k - 1 - N.to_nat b)) by (rewrite E; reflexivity).
    rewrite !encode_row_nth in Hn by lia. injection Hn as Hn. unfold label_bit in Hn.
    replace (N.of_nat (k - 1 - (k - 1 - N.to_nat b))) with b in Hn by lia. exact Hn.
  - rewrite !(proj1 (lt_pow2_bits _ (N.of_nat k))); try assumption; try reflexivity; rewrite <- pow2_nat_N; lia.
Qed.

Lemma mapping_labels k mp symbols g : mapping_ok k symbols g mp ->
  forall a, a < 2 ^ k -> exists row, nth_error (encoding mp) a = Some row /\ length row = k /\ bits_value row = N.of_nat a.
Proof.
  intros [_ [_ [_ [_ [He _]]]]] a Ha. exists (encode_row k a). rewrite He.
  assert (E : nth_error (encoding_table k (2 ^ k)) a = Some (encode_row k a)) by (apply encoding_table_nth; assumption).
  split; [exact E|]. split; [apply encode_row_length|]. eapply encoding_value; eassumption.
Qed.

(** a nearest-neighbour pair of 32-QAM whose labels differ in more than one bit *)
Definition forall_pairs {A} (f : A -> A -> bool) (l : list A) : bool := forallb (fun a => forallb (f a) l) l.

Lemma coded_scaled k mp cs : 1 <= k -> qam_mapping k = Ok mp -> coded_symbols_of (cal_symbols_qam k) (gray_code_qam k) = Ok cs ->
  coded_symbols mp = map (scaled (sqrt (cal_scaling_factor_qam k))) cs.
Proof.
  intros Hk Hmp Hcs. unfold qam_mapping, qam_mapping_scaled, generate_mapping in Hmp.
  unfold coded_symbols_of in *. destruct (inverse_code (gray_code_qam k)) as [u|]; [|discriminate]; cbn [bind] in *.
  assert (E : fancy_get u (map (scaled (sqrt (cal_scaling_factor_qam k))) (cal_symbols_qam k))
              = Ok (map (scaled (sqrt (cal_scaling_factor_qam k))) cs)).
  { clear Hmp. unfold fancy_get in *. revert cs Hcs; induction u as [|i u IH]; intros cs Hcs; cbn [mapM] in *; [injection Hcs as <-; reflexivity|].
    unfold getn in *. rewrite nth_error_map. destruct (nth_error (cal_symbols_qam k) i) as [z|]; [|discriminate]; cbn [bind option_map] in *.
    destruct (mapM _ u) as [cs'|] eqn:E'; [|discriminate]; cbn [bind] in Hcs; injection Hcs as <-.
    rewrite (IH cs' eq_refl); reflexivity. }
  unfold scaled in E at 1. rewrite E in Hmp; cbn [bind] in Hmp.
  destruct (demodulate_idx _ _); [|discriminate]; cbn [bind] in Hmp.
  destruct (generate_bitmapping_mtx _ _ _ _); [|discriminate]; cbn [bind] in Hmp. injection Hmp as <-; reflexivity.
Qed.

Lemma cross32_not_gray : exists mp,
  qam_mapping 5 = Ok mp /\ nearest_neighbours (coded_symbols mp) 0 12 /\ ~ differ_in_one_bit 0 12.
Proof.
  destruct (qam_mapping_ok 5) as [mp [Hmp Hok]]; [lia|].
  exists mp; split; [assumption|]. split.
  - set (r := sqrt (cal_scaling_factor_qam 5)).
    assert (Hr : (0 < r)%R) by (apply r_pos; lia).
    destruct (coded_symbols_of (cal_symbols_qam 5) (gray_code_qam 5)) as [cs|e] eqn:Ecs; [|vm_compute in Ecs; discriminate].
    assert (Hc := coded_scaled 5 mp cs ltac:(lia) Hmp Ecs). fold r in Hc.
    vm_compute in Ecs. injection Ecs as <-.
    split; [lia|]. rewrite Hc.
    eexists _, _. split; [reflexivity|]. split; [reflexivity|].
    intros c d p' q' Hcd Hc' Hd'. rewrite nth_error_map in Hc', Hd'.
    match type of Hc' with option_map _ (nth_error ?l c) = _ => set (cs := l) in * end.
    destruct (nth_error cs c) as [z|] eqn:Ez; [|discriminate]. destruct (nth_error cs d) as [w|] eqn:Ew; [|discriminate].
    cbn in Hc', Hd'. injection Hc' as <-. injection Hd' as <-.
    apply scaled_dist_le; [assumption|].
    apply Z.le_trans with 4%Z; [vm_compute; discriminate|].
    apply (symbols_mindist 5); [lia| | |].
    + apply nth_error_In in Ez. revert Ez. apply (incl_Forall_in_iff cs). vm_compute. repeat (constructor; [tauto|]). constructor.
    + apply nth_error_In in Ew. revert Ew. apply (incl_Forall_in_iff cs). vm_compute. repeat (constructor; [tauto|]). constructor.
    + intros ->. apply Hcd. eapply NoDup_nth_error_inj; [|exact Ez|exact Ew].
      assert (NoDup (coded_symbols mp)) by (apply (qam_NoDup 5); [lia|assumption]).
      rewrite Hc in H. eapply NoDup_map_inv; exact H.
  - intros [i H]. assert (H2 : 2%N = i) by (apply H; vm_compute; discriminate).
    assert (H3 : 3%N = i) by (apply H; vm_compute; discriminate). congruence.
Qed.
