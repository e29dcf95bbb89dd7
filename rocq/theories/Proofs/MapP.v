(** Lemmas about the bit mapping, modulation and demodulation. *)
From Coq Require Import List ZArith NArith Bool Lia Permutation FinFun ZifyBool ZifyNat ZifyN Reals Lra Psatz Arith.
From Verif Require Import Common.Py Common.ListX Common.Cplx Model.Gray Model.Constellation Model.Decision
  Spec.Bits Spec.Geometry Proofs.GrayP Proofs.ConstP Proofs.DecisionP.
Import ListNotations.
Ltac Zify.zify_post_hook ::= Z.div_mod_to_equations.

Lemma chunks_concat {A} w (rows : list (list A)) :
  0 < w -> (forall r, In r rows -> length r = w) -> chunks w (concat rows) = rows.
Proof.
  intros Hw; induction rows as [|r rows IH]; intros H; [reflexivity|].
  cbn [concat]. assert (Hr : length r = w) by (apply H; left; reflexivity).
  rewrite chunks_cons; [|assumption|destruct r; cbn in *; [lia|discriminate]].
  rewrite <- Hr at 1 2. rewrite firstn_app, firstn_all, Nat.sub_diag, firstn_O, app_nil_r.
  rewrite <- Hr. rewrite skipn_app, skipn_all, Nat.sub_diag; cbn [app skipn].
  rewrite Hr, IH; [reflexivity|]. intros; apply H; right; assumption.
Qed.

Lemma concat_length_const {A} w (rows : list (list A)) :
  (forall r, In r rows -> length r = w) -> length (concat rows) = length rows * w.
Proof.
  induction rows as [|r rows IH]; intros H; [reflexivity|]. cbn [concat length]. rewrite app_length, IH.
  - rewrite (H r) by (left; reflexivity); lia.
  - intros; apply H; right; assumption.
Qed.

Lemma reshape_concat {A} w (rows : list (list A)) :
  0 < w -> (forall r, In r rows -> length r = w) -> reshape w (concat rows) = Ok rows.
Proof.
  intros Hw H; unfold reshape. rewrite (concat_length_const w) by assumption.
  rewrite Nat.mod_mul by lia. destruct (Nat.eqb_spec w 0); [lia|]. cbn [orb negb Nat.eqb].
  rewrite chunks_concat by assumption; reflexivity.
Qed.

(** ** the encoding table *)
Lemma encoding_table_length k m : length (encoding_table k m) = m.
Proof. unfold encoding_table; rewrite map_length, seq_length; reflexivity. Qed.
Lemma encoding_table_nth k m i : i < m -> nth_error (encoding_table k m) i = Some (encode_row k i).
Proof. intros; unfold encoding_table; rewrite nth_error_map_seq by assumption; reflexivity. Qed.
Lemma encoding_table_rows k m r : In r (encoding_table k m) -> length r = k.
Proof. intros H; apply in_map_iff in H; destruct H as [i [<- _]]; apply encode_row_length. Qed.

Lemma demodulate_idx_ok k m idx : (forall i, In i idx -> i < m) ->
  demodulate_idx (encoding_table k m) idx = Ok (concat (map (encode_row k) idx)).
Proof.
  intros H; unfold demodulate_idx, fancy_get. rewrite (mapM_ok _ (encode_row k)); [reflexivity|].
  intros i Hi; unfold getn; rewrite encoding_table_nth by auto; reflexivity.
Qed.

(** ** bit map matrix *)
Lemma bool_column_ok k m b : b < k ->
  bool_column b (encoding_table k m) = Ok (map (label_bit k b) (seq 0 m)).
Proof.
  intros Hb; unfold bool_column, encoding_table. generalize (seq 0 m) as l.
  induction l as [|i l IH]; [reflexivity|]. cbn [map mapM].
  unfold getn at 1; rewrite encode_row_nth by assumption; cbn [bind]. rewrite IH; reflexivity.
Qed.

Lemma mask_sel_filter {A} (f : nat -> bool) (cs : list A) s :
  map Some (mask_sel (map f (seq s (length cs))) cs)
  = map (fun i => nth_error cs (i - s)) (filter f (seq s (length cs))).
Proof.
  revert s; induction cs as [|c cs IH]; intros s; [reflexivity|].
  cbn [length seq map mask_sel filter].
  assert (E : map (fun i => nth_error (c :: cs) (i - s)) (filter f (seq (S s) (length cs)))
            = map (fun i => nth_error cs (i - S s)) (filter f (seq (S s) (length cs)))).
  { apply map_ext_in; intros i Hi; apply filter_In in Hi; destruct Hi as [Hi _]; apply in_seq in Hi.
    replace (i - s) with (S (i - S s)) by lia; reflexivity. }
  destruct (f s); cbn [map mask_sel]; rewrite IH, <- E; [|reflexivity].
  rewrite Nat.sub_diag; reflexivity.
Qed.

Lemma count_true_map f (l : list nat) : count_true (map f l) = length (filter f l).
Proof. induction l as [|a l IH]; [reflexivity|]; cbn; destruct (f a); cbn; rewrite IH; reflexivity. Qed.

Lemma seq_shift_map s n : seq s n = map (fun i => s + i) (seq 0 n).
Proof.
  apply nth_error_ext_lt; [rewrite map_length, !seq_length; reflexivity|].
  intros i Hi; rewrite seq_length in Hi. rewrite nth_error_seq, nth_error_map_seq by assumption; reflexivity.
Qed.

Lemma filter_map_length {A B} (f : B -> bool) (g : A -> B) l :
  length (filter f (map g l)) = length (filter (fun a => f (g a)) l).
Proof. induction l as [|a l IH]; [reflexivity|]; cbn; destruct (f (g a)); cbn; rewrite IH; reflexivity. Qed.

Lemma filter_length_ext {A} (f g : A -> bool) l :
  (forall a, In a l -> f a = g a) -> length (filter f l) = length (filter g l).
Proof.
  induction l as [|a l IH]; intros H; [reflexivity|]; cbn.
  rewrite (H a) by (left; reflexivity). destruct (g a); cbn; rewrite IH; auto; intros; apply H; right; assumption.
Qed.

Lemma filter_all_length {A} (f : A -> bool) l b :
  (forall a, In a l -> f a = b) -> length (filter f l) = if b then length l else 0.
Proof.
  induction l as [|a l IH]; intros H; [destruct b; reflexivity|]; cbn.
  rewrite (H a) by (left; reflexivity). destruct b; cbn; rewrite IH; auto; intros; apply H; right; assumption.
Qed.

Lemma testbit_add_pow2 k i j : i < 2 ^ k ->
  N.testbit (N.of_nat (2 ^ k + i)) (N.of_nat j) = if j =? k then true else N.testbit (N.of_nat i) (N.of_nat j).
Proof.
  intros Hi. rewrite Nat2N.inj_add, pow2_nat_N.
  assert (Hv : (N.of_nat i < 2 ^ N.of_nat k)%N) by (rewrite <- pow2_nat_N; lia).
  assert (L : N.land (2 ^ N.of_nat k) (N.of_nat i) = 0%N).
  { apply N.bits_inj; intros m; rewrite N.land_spec, N.bits_0, N.pow2_bits_eqb.
    destruct (N.eqb_spec (N.of_nat k) m) as [<-|]; [|reflexivity].
    rewrite (proj1 (lt_pow2_bits _ _) Hv); [reflexivity|lia]. }
  rewrite N.add_nocarry_lxor by exact L. rewrite N.lxor_spec, N.pow2_bits_eqb.
  destruct (N.eqb_spec (N.of_nat k) (N.of_nat j)), (Nat.eqb_spec j k); try lia.
  - rewrite (proj1 (lt_pow2_bits _ _) Hv) by lia; reflexivity.
  - apply xorb_false_l.
Qed.

Lemma label_count k j : j < k ->
  length (filter (fun i => N.testbit (N.of_nat i) (N.of_nat j)) (seq 0 (2 ^ k))) = 2 ^ (k - 1).
Proof.
  induction k as [|k IH]; intros Hj; [lia|].
  replace (2 ^ S k) with (2 ^ k + 2 ^ k) by (rewrite Nat.pow_succ_r'; lia).
  rewrite seq_app, filter_app, app_length, Nat.add_0_l, (seq_shift_map (2 ^ k)), filter_map_length.
  rewrite (filter_length_ext (fun a => N.testbit (N.of_nat (2 ^ k + a)) (N.of_nat j)) (fun i => if j =? k then true else N.testbit (N.of_nat i) (N.of_nat j)) (seq 0 (2 ^ k))).
  2:{ intros i Hi; apply in_seq in Hi; apply testbit_add_pow2; lia. }
  replace (S k - 1) with k by lia.
  destruct (Nat.eqb_spec j k) as [->|Hne].
  - rewrite (filter_all_length (fun _ => true) _ true) by auto.
    rewrite (filter_all_length _ _ false); [rewrite seq_length; reflexivity|].
    intros i Hi; apply in_seq in Hi.
    apply (proj1 (lt_pow2_bits _ (N.of_nat k))); [rewrite <- pow2_nat_N; lia|lia].
  - rewrite IH by lia. destruct k as [|k]; [lia|].
    replace (S k - 1) with k by lia. rewrite Nat.pow_succ_r'; lia.
Qed.

Lemma label_bit_count k b : b < k -> count_true (map (label_bit k b) (seq 0 (2 ^ k))) = 2 ^ (k - 1).
Proof. intros Hb; rewrite count_true_map; unfold label_bit; apply label_count; lia. Qed.

Lemma bitmap_ok {A} (cs : list A) k :
  1 <= k -> length cs = 2 ^ k ->
  exists bm, generate_bitmapping_mtx cs (concat (encoding_table k (2 ^ k))) (2 ^ k) k = Ok bm /\
    length bm = k /\
    forall b, b < k -> exists zs os, nth_error bm b = Some (zs, os) /\
      length zs = 2 ^ (k - 1) /\ length os = 2 ^ (k - 1) /\
      map Some zs = map (nth_error cs) (filter (fun i => negb (label_bit k b i)) (seq 0 (2 ^ k))) /\
      map Some os = map (nth_error cs) (filter (label_bit k b) (seq 0 (2 ^ k))).
Proof.
  intros Hk Hl; unfold generate_bitmapping_mtx.
  rewrite reshape_concat; [|lia|apply encoding_table_rows]. cbn [bind].
  rewrite encoding_table_length, Nat.eqb_refl; cbn [negb].
  set (zs := fun b => mask_sel (map (fun i => negb (label_bit k b i)) (seq 0 (2 ^ k))) cs).
  set (os := fun b => mask_sel (map (label_bit k b) (seq 0 (2 ^ k))) cs).
  assert (Hlen : forall b, b < k -> length (zs b) = 2 ^ (k - 1) /\ length (os b) = 2 ^ (k - 1)).
  { intros b Hb; unfold zs, os. rewrite !mask_sel_length by (rewrite map_length, seq_length; congruence).
    pose proof (label_bit_count k b Hb) as Hc. pose proof (count_true_neg (map (label_bit k b) (seq 0 (2 ^ k)))) as Hn.
    rewrite map_map, map_length, seq_length in Hn. rewrite Hc in *.
    replace (2 ^ k) with (2 * 2 ^ (k - 1)) in Hn at 2 by (rewrite <- Nat.pow_succ_r'; f_equal; lia).
    split; lia. }
  assert (Hhalf : 2 ^ k / 2 = 2 ^ (k - 1)).
  { replace (2 ^ k) with (2 ^ (k - 1) * 2) by (rewrite Nat.mul_comm, <- Nat.pow_succ_r'; f_equal; lia).
    apply Nat.div_mul; lia. }
  rewrite (mapM_ok _ (fun b => (zs b, os b))).
  2:{ intros b Hb; apply in_seq in Hb. rewrite bool_column_ok by lia; cbn [bind]. unfold bitmapping_row, mask_get.
      rewrite map_map. rewrite !map_length, seq_length, Hl, Nat.eqb_refl; cbn [bind].
      destruct (Hlen b ltac:(lia)) as [H1 H2]. unfold zs, os in H1, H2. rewrite H1, H2, Hhalf, Nat.eqb_refl; reflexivity. }
  eexists; split; [reflexivity|]. split; [rewrite map_length, seq_length; reflexivity|].
  intros b Hb. exists (zs b), (os b). split; [rewrite nth_error_map_seq by assumption; reflexivity|].
  destruct (Hlen b Hb) as [H1 H2]. repeat split; try assumption; unfold zs, os; rewrite <- Hl, mask_sel_filter;
    apply map_ext; intros i; f_equal; lia.
Qed.

(** ** the whole mapping *)
Definition mapping_ok (k : nat) (symbols : list C) (g : list N) (mp : mapping) : Prop :=
  Permutation (coded_symbols mp) symbols /\ length (coded_symbols mp) = 2 ^ k /\
  (forall i x, nth_error g i = Some x -> nth_error (coded_symbols mp) (N.to_nat x) = nth_error symbols i) /\
  graycode mp = g /\ encoding mp = encoding_table k (2 ^ k) /\
  length (bitmap_mtx mp) = k /\
  forall b, b < k -> exists zs os, nth_error (bitmap_mtx mp) b = Some (zs, os) /\
      length zs = 2 ^ (k - 1) /\ length os = 2 ^ (k - 1) /\
      map Some zs = map (nth_error (coded_symbols mp)) (filter (fun i => negb (label_bit k b i)) (seq 0 (2 ^ k))) /\
      map Some os = map (nth_error (coded_symbols mp)) (filter (label_bit k b) (seq 0 (2 ^ k))).

Lemma generate_mapping_ok k symbols g :
  1 <= k -> code_ok g -> length g = 2 ^ k -> length symbols = 2 ^ k ->
  exists mp, generate_mapping k symbols g = Ok mp /\ mapping_ok k symbols g mp.
Proof.
  intros Hk Hg Hlg Hls; unfold generate_mapping.
  destruct (coded_symbols_ok symbols g Hg ltac:(congruence)) as [cs [Hcs [Hp Hin]]].
  rewrite Hcs; cbn [bind]. rewrite Hlg.
  rewrite demodulate_idx_ok by (intros i Hi; apply in_seq in Hi; lia). cbn [bind].
  change (map (encode_row k) (seq 0 (2 ^ k))) with (encoding_table k (2 ^ k)).
  assert (Hlc : length cs = 2 ^ k) by (rewrite (Permutation_length Hp); assumption).
  destruct (bitmap_ok cs k Hk Hlc) as [bm [Hbm [Hlb Hb]]].
  rewrite Hbm; cbn [bind]. eexists; split; [reflexivity|].
  unfold mapping_ok; cbn [coded_symbols graycode encoding bitmap_mtx]. repeat split; assumption.
Qed.

(** ** modulate *)
Lemma log2_pow2 k : Nat.log2 (2 ^ k) = k.
Proof. apply Nat.log2_pow2; lia. Qed.

Lemma modulate_row_ok {A} (cs : list A) k bits :
  1 <= k -> length cs = 2 ^ k ->
  exists syms, modulate_row cs bits = Ok syms /\
    length syms = length bits / k /\
    map Some syms = map (fun b => nth_error cs (block_index k b)) (chunks k (firstn (length bits / k * k) bits)).
Proof.
  intros Hk Hl; unfold modulate_row. rewrite Hl, log2_pow2.
  destruct (Nat.eqb_spec k 0) as [?|Hk0]; [lia|].
  assert (En : length bits - length bits mod k = length bits / k * k).
  { apply Nat.add_sub_eq_r. rewrite Nat.mul_comm; symmetry; apply Nat.div_mod_eq. }
  rewrite En. set (n := length bits / k).
  assert (Hle : n * k <= length bits).
  { unfold n; rewrite Nat.mul_comm; apply Nat.mul_div_le; lia. }
  assert (Hln : length (firstn (n * k) bits) = n * k) by (apply firstn_length_le; assumption).
  unfold reshape. rewrite Hln, Nat.mod_mul by lia. destruct (Nat.eqb_spec k 0); [lia|]; cbn [orb negb Nat.eqb bind].
  set (blocks := chunks k (firstn (n * k) bits)).
  assert (Hb : forall b, In b blocks -> length b = k).
  { intros b Hb; eapply chunks_elem_length; [|exact Hln|exact Hb]; lia. }
  assert (Hlb : length blocks = n) by (apply chunks_length_mul; [lia|assumption]).
  destruct cs as [|a0 cs'] eqn:Ecs; [pose proof (pow2_pos k); cbn in Hl; lia|]; rewrite <- Ecs in *.
  exists (map (fun b => nth (block_index k b) cs a0) blocks).
  assert (Hr : forall b, In b blocks -> nth_error cs (block_index k b) = Some (nth (block_index k b) cs a0)).
  { intros b Hin; apply nth_error_nth'. rewrite Hl; apply block_index_lt; auto. }
  split; [|split].
  - unfold fancy_get. rewrite (mapM_ok _ (fun i => nth i cs a0)).
    + rewrite map_map; reflexivity.
    + intros i Hi; apply in_map_iff in Hi; destruct Hi as [b [<- Hin]]. unfold getn; rewrite Hr by assumption; reflexivity.
  - rewrite map_length; assumption.
  - rewrite map_map; apply map_ext_in; intros b Hin; symmetry; apply Hr; assumption.
Qed.

(** ** demodulate *)
Lemma make_decision_points cs idx syms :
  NoDup cs -> map Some syms = map (nth_error cs) idx ->
  make_decision syms cs = Ok (combine (combine syms (repeat 0%R (length syms))) idx).
Proof.
  intros Hnd; unfold make_decision; revert idx; induction syms as [|s syms IH]; intros [|i idx] H; cbn in H; try discriminate; [reflexivity|].
  injection H as Hs Hr. cbn [mapM]. rewrite (det_symbol_argmin_point cs i s Hnd (eq_sym Hs)); cbn [bind].
  rewrite (IH idx Hr); reflexivity.
Qed.

Lemma uint16_small i : i < 2 ^ 16 -> uint16 i = i.
Proof.
  intros H; unfold uint16. rewrite N.mod_small; [lia|].
  assert (N.of_nat i < N.of_nat (2 ^ 16))%N by lia. rewrite pow2_nat_N in H0; exact H0.
Qed.

Lemma map_snd_combine {A B} (l : list A) (l' : list B) : length l = length l' -> map snd (combine l l') = l'.
Proof. revert l'; induction l as [|a l IH]; intros [|b l'] H; cbn in *; try discriminate; auto; f_equal; apply IH; congruence. Qed.
Lemma map_fst_combine {A B} (l : list A) (l' : list B) : length l = length l' -> map fst (combine l l') = l.
Proof. revert l'; induction l as [|a l IH]; intros [|b l'] H; cbn in *; try discriminate; auto; f_equal; apply IH; congruence. Qed.

Lemma demodulate_points mp k rows idxs :
  1 <= k -> NoDup (coded_symbols mp) -> encoding mp = encoding_table k (2 ^ k) ->
  Forall2 (fun syms idx => map Some syms = map (nth_error (coded_symbols mp)) idx /\
                           forall i, In i idx -> uint16 i < 2 ^ k) rows idxs ->
  demodulate mp rows = Ok (map (fun idx => concat (map (fun i => encode_row k (uint16 i)) idx)) idxs).
Proof.
  intros Hk Hnd He H. unfold demodulate, signal_make_decision. rewrite He.
  assert (E : mapM (fun row => let! r := make_decision row (coded_symbols mp) in
                       Ok (map (fun t => (fst t, uint16 (snd t))) r)) rows
            = Ok (map (fun p => map (fun t => (fst t, uint16 (snd t)))
                       (combine (combine (fst p) (repeat 0%R (length (fst p)))) (snd p))) (combine rows idxs))).
  { induction H as [|syms idx rows idxs [H1 H2] _ IH]; [reflexivity|]. cbn [mapM combine map fst snd].
    rewrite (make_decision_points _ idx) by assumption. cbn [bind]. rewrite IH; reflexivity. }
  rewrite E; cbn [bind]; clear E.
  induction H as [|syms idx rows idxs [H1 H2] _ IH]; [reflexivity|]. cbn [mapM combine map fst snd].
  rewrite IH; cbn [bind].
  assert (Hl : length syms = length idx) by (rewrite <- (map_length Some syms), H1, map_length; reflexivity).
  rewrite map_map; cbn [snd].
  replace (map (fun x => uint16 (snd x)) (combine (combine syms (repeat 0%R (length syms))) idx)) with (map uint16 idx).
  2:{ rewrite <- (map_map snd uint16). rewrite map_snd_combine; [reflexivity|].
      rewrite combine_length, repeat_length; lia. }
  rewrite demodulate_idx_ok.
  - cbn [bind]. rewrite map_map; reflexivity.
  - intros i Hi; apply in_map_iff in Hi; destruct Hi as [j [<- Hj]]; auto.
Qed.

Lemma modulate_ok mp k rows :
  1 <= k -> length (coded_symbols mp) = 2 ^ k ->
  exists out, modulate mp rows = Ok out /\
    Forall2 (fun bits syms => length syms = length bits / k /\
      map Some syms = map (fun b => nth_error (coded_symbols mp) (block_index k b))
                          (chunks k (firstn (length bits / k * k) bits))) rows out.
Proof.
  intros Hk Hl; induction rows as [|bits rows IH]; [exists []; split; [reflexivity|constructor]|].
  destruct IH as [out [Ho HF]].
  destruct (modulate_row_ok (coded_symbols mp) k bits Hk Hl) as [syms [Hs [H1 H2]]].
  exists (syms :: out); split; [|constructor; auto].
  unfold modulate, modulate_arr in *; cbn [mapM]. rewrite Hs; cbn [bind]. rewrite Ho; reflexivity.
Qed.

Lemma roundtrip mp k rows :
  1 <= k <= 16 -> NoDup (coded_symbols mp) -> length (coded_symbols mp) = 2 ^ k ->
  encoding mp = encoding_table k (2 ^ k) ->
  exists out, modulate mp rows = Ok out /\
    Forall2 (fun bits syms => length syms = length bits / k /\
                              forall s, In s syms -> In s (coded_symbols mp)) rows out /\
    demodulate mp out = Ok (map (fun bits => firstn (length bits / k * k) bits) rows).
Proof.
  intros Hk Hnd Hl He. destruct (modulate_ok mp k rows) as [out [Ho HF]]; [lia|assumption|].
  exists out; split; [assumption|].
  assert (Hblk : forall (bits b : list bool), In b (chunks k (firstn (length bits / k * k) bits)) -> length b = k).
  { intros bits b Hb; eapply chunks_elem_length; [| |exact Hb]; [lia|].
    apply firstn_length_le. rewrite Nat.mul_comm; apply Nat.mul_div_le; lia. }
  assert (Hpow : 2 ^ k <= 2 ^ 16) by (apply Nat.pow_le_mono_r; lia).
  split.
  - eapply Forall2_imp; [|exact HF]. intros bits syms [H1 H2]; split; [assumption|].
    intros s Hs. assert (Hin : In (Some s) (map Some syms)) by (apply in_map; assumption).
    rewrite H2 in Hin. apply in_map_iff in Hin; destruct Hin as [b [Hb _]]. eapply nth_error_In; eassumption.
  - rewrite (demodulate_points mp k out
       (map (fun bits => map (block_index k) (chunks k (firstn (length bits / k * k) bits))) rows)).
    + f_equal. rewrite map_map. apply map_ext; intros bits.
      rewrite map_map. etransitivity; [|apply (concat_chunks k); lia]. f_equal.
      etransitivity; [|apply map_id]. apply map_ext_in; intros b Hb.
      pose proof (block_index_lt k b (Hblk _ _ Hb)). rewrite uint16_small by lia.
      apply encode_block; eauto.
    + lia.
    + assumption.
    + assumption.
    + clear -HF Hblk Hpow. induction HF as [|bits syms rows out [H1 H2] _ IH]; cbn [map]; constructor; [|assumption].
      split; [rewrite H2, map_map; reflexivity|].
      intros i Hi; apply in_map_iff in Hi; destruct Hi as [b [<- Hb]].
      pose proof (block_index_lt k b (Hblk _ _ Hb)). rewrite uint16_small by lia. assumption.
Qed.
