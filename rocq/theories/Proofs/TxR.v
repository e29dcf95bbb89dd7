(** Interpolated DAC response. *)
From Coq Require Import List Arith ZArith Reals Lra Lia.
From Verif Require Import Common.Py Common.Cplx Common.ListX Common.SumX Common.Dft Model.Helpers Model.Impair Model.Filters Model.Transmitter
  Spec.ImpairSpec Spec.FilterSpec Spec.TxS Proofs.FiltersP Proofs.ImpairR Proofs.ImpairS Proofs.ImpairT Proofs.TxP Proofs.TxQ.
Import ListNotations.
Local Open Scope R_scope.

Definition sorted (nodes : list (R * C)) : Prop :=
  forall i j a b, (i < j)%nat -> nth_error nodes i = Some a -> nth_error nodes j = Some b -> fst a < fst b.
Definition line (a b : R * C) (v : R) : C := (Cscal ((v - fst a) / (fst b - fst a)) (snd b - snd a) + snd a)%C.
Definition on_line (nodes : list (R * C)) (v : R) (w : C) : Prop :=
  exists i a b, nth_error nodes i = Some a /\ nth_error nodes (S i) = Some b /\ fst a <= v <= fst b /\ w = line a b v.
Lemma sorted_tl a nodes : sorted (a :: nodes) -> sorted nodes.
Proof. intros H i j x y L X Y. apply (H (S i) (S j) x y); [lia|exact X|exact Y]. Qed.
Lemma line_lo a b : line a b (fst a) = snd a.
Proof. unfold line. unfold Rdiv. rewrite Rminus_diag_eq by reflexivity. cring. Qed.
Lemma line_hi a b : fst a < fst b -> line a b (fst b) = snd b.
Proof. intros H. unfold line. unfold Rdiv. rewrite Rinv_r by lra. cring. Qed.
Lemma interp_from_line nodes fill v w : sorted nodes -> on_line nodes v w -> interp_from nodes fill v = w.
Proof.
  revert w. induction nodes as [|[x0 y0] nodes IH]; intros w S (i & a & b & A & B & V & W); [destruct i; discriminate|].
  destruct nodes as [|[x1 y1] nodes]; [destruct i; cbn in *; [discriminate|destruct i; discriminate]|].
  cbn [interp_from]. destruct (Rle_dec v x1) as [L|L].
  - destruct i as [|[|i]].
    + cbn [nth_error] in A, B. injection A as <-. injection B as <-. subst w. reflexivity.
    + cbn [nth_error] in A. injection A as <-. cbn [fst] in V. assert (v = x1) by lra. subst v w.
      change x1 with (fst (x1, y1)) at 3. rewrite line_lo. pose proof (S 0%nat 1%nat _ _ Nat.lt_0_1 eq_refl eq_refl) as H. cbn [fst] in H.
      change (line (x0, y0) (x1, y1) (fst (x1, y1)) = snd (x1, y1)). apply line_hi. exact H.
    + exfalso. pose proof (S 1%nat (Datatypes.S (Datatypes.S i)) _ _ ltac:(lia) eq_refl A) as H. cbn [fst] in H. lra.
  - destruct i as [|i]; [cbn [nth_error] in B; injection B as <-; cbn [fst] in V; lra|].
    apply IH; [exact (sorted_tl _ _ S)|]. exists i, a, b. auto.
Qed.
Lemma interp_line nodes fill v w : sorted nodes -> on_line nodes v w -> interp1d nodes fill v = w.
Proof.
  intros S H. destruct nodes as [|[x0 y0] nodes]; [destruct H as ([|?] & ? & ? & A & _); discriminate|]. unfold interp1d.
  destruct (Rlt_dec v x0) as [L|L]; [|apply interp_from_line; assumption]. exfalso.
  destruct H as ([|i] & a & b & A & _ & V & _).
  - injection A as <-. cbn [fst] in V. lra.
  - pose proof (S 0%nat (Datatypes.S i) _ _ ltac:(lia) eq_refl A) as H. cbn [fst] in H. lra.
Qed.
Lemma interp_from_cases nodes fill v x0 y0 : sorted nodes -> nth_error nodes 0 = Some (x0, y0) -> x0 <= v -> (2 <= length nodes)%nat ->
  on_line nodes v (interp_from nodes fill v) \/ (interp_from nodes fill v = fill /\ forall p, In p nodes -> fst p < v).
Proof.
  revert x0 y0. induction nodes as [|[x y] nodes IH]; intros x0 y0 S H L Ln; [discriminate|]. injection H as -> ->.
  destruct nodes as [|[x1 y1] nodes]; [cbn in Ln; lia|]. cbn [interp_from]. destruct (Rle_dec v x1) as [V|V].
  - left. exists 0%nat, (x0, y0), (x1, y1). repeat split; cbn [fst]; try lra; reflexivity.
  - apply Rnot_le_lt in V. pose proof (S 0%nat 1%nat _ _ Nat.lt_0_1 eq_refl eq_refl) as H01. cbn [fst] in H01.
    destruct nodes as [|n2 nodes].
    + right. split; [reflexivity|]. intros p [<-|[<-|[]]]; cbn [fst]; lra.
    + destruct (IH x1 y1 (sorted_tl _ _ S) eq_refl ltac:(lra) ltac:(cbn; lia)) as [(i & a & b & A & B & W)|(F & G)].
      * left. exists (Datatypes.S i), a, b. auto.
      * right. split; [exact F|]. intros p [<-|Hp]; [cbn [fst]; lra|apply G, Hp].
Qed.
Lemma interp_cases nodes fill v : sorted nodes -> (2 <= length nodes)%nat ->
  on_line nodes v (interp1d nodes fill v) \/
  (interp1d nodes fill v = fill /\ ((forall p, In p nodes -> fst p < v) \/ (forall p, In p nodes -> v < fst p))).
Proof.
  intros S L. destruct nodes as [|[x0 y0] nodes]; [cbn in L; lia|]. unfold interp1d. destruct (Rlt_dec v x0) as [V|V].
  - right. split; [reflexivity|right]. intros p Hp. apply In_nth_error in Hp as (i & Hi). destruct i as [|i]; [injection Hi as <-; exact V|].
    pose proof (S 0%nat (Datatypes.S i) _ _ ltac:(lia) eq_refl Hi) as H. cbn [fst] in H. lra.
  - apply Rnot_lt_le in V. destruct (interp_from_cases _ fill v x0 y0 S eq_refl V L) as [H|(H & G)]; [left; exact H|right; auto].
Qed.

(** ** the copy to negative frequencies *)
Definition refl (p : R * C) : R * C := (- fst p, Cconj (snd p)).
Definition pos (r : dac_row) : R * C := (r_f r, dac_resp r).
Lemma combine_rev {A B} (a : list A) (b : list B) : length a = length b -> combine (rev a) (rev b) = rev (combine a b).
Proof.
  revert b. induction a as [|x a IH]; intros [|y b] L; try discriminate; [reflexivity|]. injection L as L. cbn [rev combine].
  rewrite <- IH by exact L. clear IH. assert (H : length (rev a) = length (rev b)) by (rewrite !rev_length; exact L). clear L.
  revert H. generalize (rev a), (rev b). induction l as [|u l IH]; intros [|w m] H; try discriminate; [reflexivity|].
  injection H as H. cbn [app combine]. rewrite IH by exact H. reflexivity.
Qed.
Lemma combine_maps {A B D} (f : A -> B) (g : A -> D) l : combine (map f l) (map g l) = map (fun x => (f x, g x)) l.
Proof. induction l as [|x l IH]; [reflexivity|]. cbn [map combine]. rewrite IH. reflexivity. Qed.
Lemma combine_app' {A B} (a c : list A) (b d : list B) : length a = length b -> combine (a ++ c) (b ++ d) = combine a b ++ combine c d.
Proof. revert b. induction a as [|x a IH]; intros [|y b] L; try discriminate; [reflexivity|]. injection L as L. cbn [app combine]. rewrite IH by exact L. reflexivity. Qed.
Lemma dac_nodes_eq rows : dac_nodes rows = rev (map (fun r => refl (pos r)) (tl rows)) ++ map pos rows.
Proof.
  unfold dac_nodes. rewrite combine_app' by (rewrite !rev_length, !map_length; reflexivity).
  rewrite combine_rev by (rewrite !map_length; reflexivity). rewrite !combine_maps. reflexivity.
Qed.
Lemma nodes_refl r0 rest : r_f r0 = 0 -> snd (dac_resp r0) = 0 -> map refl (rev (dac_nodes (r0 :: rest))) = dac_nodes (r0 :: rest).
Proof.
  intros F I. rewrite dac_nodes_eq. cbn [tl map]. rewrite rev_app_distr, rev_involutive. cbn [rev].
  rewrite !map_app, map_rev, !map_map, <- app_assoc. cbn [map app]. f_equal.
  apply (f_equal2 cons).
  - unfold refl, pos. rewrite F. cbn [fst snd]. rewrite Ropp_0. apply (f_equal2 pair); [reflexivity|]. unfold Cconj. apply C_eq; cbn [fst snd]; [reflexivity|].
    assert (snd (dac_resp r0) = 0) as -> by exact I. ring.
  - apply map_ext. intros r. unfold refl, pos. cbn [fst snd]. rewrite Ropp_involutive, Cconj_invol. reflexivity.
Qed.
Lemma nodes_refl_nth r0 rest i p : r_f r0 = 0 -> snd (dac_resp r0) = 0 -> let nd := dac_nodes (r0 :: rest) in
  nth_error nd i = Some p -> nth_error nd (length nd - S i) = Some (refl p).
Proof.
  intros F I nd H. assert (L : (i < length nd)%nat) by (apply nth_error_Some; rewrite H; discriminate).
  unfold nd at 1. rewrite <- (nodes_refl r0 rest F I). fold nd. rewrite nth_error_map.
  assert (E : nth_error (rev nd) (length nd - S i) = Some p).
  { rewrite (nth_error_nth' _ p) by (rewrite rev_length; lia). rewrite rev_nth by lia.
    replace (length nd - S (length nd - S i))%nat with i by lia. rewrite (nth_error_nth nd i p H). reflexivity. }
  rewrite E. reflexivity.
Qed.
Lemma map_pos_nth rows j p : nth_error (map pos rows) j = Some p -> exists r, nth_error rows j = Some r /\ p = pos r.
Proof. rewrite nth_error_map. destruct (nth_error rows j) as [r|]; [|discriminate]. intros H. injection H as <-. exists r. auto. Qed.
Lemma nodes_sorted r0 rest : r_f r0 = 0 -> increasing (r0 :: rest) -> sorted (dac_nodes (r0 :: rest)).
Proof.
  intros F Inc i j a b L A B. rewrite dac_nodes_eq in A, B. cbn [tl] in A, B. set (K := length rest).
  assert (Neg : forall k p, nth_error (rev (map (fun r => refl (pos r)) rest)) k = Some p -> exists r, nth_error rest (K - S k) = Some r /\ p = refl (pos r) /\ (k < K)%nat).
  { intros k p H. assert (Hk : (k < K)%nat) by (unfold K; rewrite <- (map_length (fun r => refl (pos r)) rest), <- rev_length; apply nth_error_Some; rewrite H; discriminate).
    rewrite (nth_error_nth' _ (refl (pos r0))) in H by (rewrite rev_length, map_length; exact Hk).
    rewrite rev_nth in H by (rewrite map_length; exact Hk). rewrite map_length in H. fold K in H. rewrite (map_nth (fun r => refl (pos r))) in H.
    exists (nth (K - S k) rest r0). split; [apply nth_error_nth'; lia|]. injection H as <-. split; [reflexivity|exact Hk]. }
  assert (Ps : forall j r, nth_error rest j = Some r -> 0 < r_f r).
  { intros j' r Hr. rewrite <- F. apply (Inc 0%nat (S j') r0 r); [lia|reflexivity|exact Hr]. }
  assert (Lr : length (rev (map (fun r => refl (pos r)) rest)) = K) by (rewrite rev_length, map_length; reflexivity).
  destruct (Nat.lt_ge_cases i K) as [Hi|Hi].
  - rewrite nth_error_app1 in A by (rewrite Lr; exact Hi). apply Neg in A as (r & R1 & -> & _).
    destruct (Nat.lt_ge_cases j K) as [Hj|Hj].
    + rewrite nth_error_app1 in B by (rewrite Lr; exact Hj). apply Neg in B as (r' & R2 & -> & _). unfold refl, pos. cbn [fst].
      pose proof (Inc (S (K - S j)) (S (K - S i)) r' r ltac:(lia) R2 R1). lra.
    + rewrite nth_error_app2 in B by (rewrite Lr; exact Hj). apply map_pos_nth in B as (r' & R2 & ->). unfold refl, pos. cbn [fst].
      pose proof (Ps _ _ R1). destruct (j - length (rev (map (fun r => refl (pos r)) rest)))%nat as [|q]; cbn [nth_error] in R2.
      * injection R2 as <-. lra.
      * pose proof (Ps _ _ R2). lra.
  - rewrite nth_error_app2 in A by (rewrite Lr; exact Hi). rewrite nth_error_app2 in B by (rewrite Lr; lia). rewrite Lr in *.
    apply map_pos_nth in A as (r & R1 & ->). apply map_pos_nth in B as (r' & R2 & ->). unfold pos. cbn [fst]. apply (Inc (i - K)%nat (j - K)%nat); [lia|assumption..].
Qed.
Lemma interp_herm r0 rest fill v : r_f r0 = 0 -> snd (dac_resp r0) = 0 -> increasing (r0 :: rest) -> rest <> [] -> snd fill = 0 ->
  interp1d (dac_nodes (r0 :: rest)) fill (- v) = Cconj (interp1d (dac_nodes (r0 :: rest)) fill v).
Proof.
  intros F I Inc Ne Fr. pose proof (nodes_sorted r0 rest F Inc) as S. set (nd := dac_nodes (r0 :: rest)) in *.
  assert (L2 : (2 <= length nd)%nat).
  { unfold nd. rewrite dac_nodes_eq. rewrite app_length, map_length. cbn [tl]. destruct rest; [congruence|]. cbn [length]. lia. }
  assert (Cf : Cconj fill = fill) by (unfold Cconj; apply C_eq; cbn [fst snd]; [reflexivity|]; assert (snd fill = 0) as -> by exact Fr; ring).
  assert (Rin : forall p, In p nd -> In (refl p) nd).
  { intros p Hp. apply In_nth_error in Hp as (i & Hi). apply (nodes_refl_nth r0 rest i p F I) in Hi. exact (nth_error_In _ _ Hi). }
  destruct (interp_cases nd fill v S L2) as [(i & a & b & A & B & V & W)|(E & O)].
  - apply interp_line; [exact S|]. pose proof (nodes_refl_nth r0 rest _ _ F I A) as A'. pose proof (nodes_refl_nth r0 rest _ _ F I B) as B'.
    fold nd in A', B'. assert (Lb : (Datatypes.S i < length nd)%nat) by (apply nth_error_Some; rewrite B; discriminate).
    exists (length nd - Datatypes.S (Datatypes.S i))%nat, (refl b), (refl a). split; [exact B'|]. split; [rewrite <- A'; f_equal; lia|].
    pose proof (S i (Datatypes.S i) a b ltac:(lia) A B) as Lt. unfold refl. cbn [fst snd]. split; [lra|]. rewrite W. unfold line. cbn [fst snd].
    unfold Cscal, Cconj, Cadd, Csub. apply C_eq; cbn [fst snd]; field; lra.
  - rewrite E, Cf. destruct (interp_cases nd fill (- v) S L2) as [(i & a & b & A & B & V & W)|(E' & _)]; [|exact E']. exfalso.
    apply nth_error_In in A, B. apply Rin in A, B. destruct O as [O|O]; pose proof (O _ A) as OA; pose proof (O _ B) as OB; unfold refl in OA, OB; cbn [fst] in *; lra.
Qed.
Lemma interp_node r0 rest fill r : r_f r0 = 0 -> increasing (r0 :: rest) -> rest <> [] -> In r (r0 :: rest) ->
  interp1d (dac_nodes (r0 :: rest)) fill (r_f r) = dac_resp r.
Proof.
  intros F Inc Ne Hr. pose proof (nodes_sorted r0 rest F Inc) as S. apply interp_line; [exact S|].
  apply In_nth_error in Hr as (j & Hj). set (nd := dac_nodes (r0 :: rest)).
  assert (P : forall k q, nth_error (r0 :: rest) k = Some q -> nth_error nd (length rest + k) = Some (pos q)).
  { intros k q Hk. unfold nd. rewrite dac_nodes_eq. rewrite nth_error_app2 by (rewrite rev_length, map_length; cbn [tl]; lia).
    rewrite rev_length, map_length. cbn [tl]. replace (length rest + k - length rest)%nat with k by lia. rewrite nth_error_map, Hk. reflexivity. }
  destruct (nth_error (r0 :: rest) (Datatypes.S j)) as [r1|] eqn:E1.
  - exists (length rest + j)%nat, (pos r), (pos r1). split; [apply P, Hj|]. split; [rewrite <- (P _ _ E1); f_equal; lia|].
    pose proof (Inc j (Datatypes.S j) r r1 ltac:(lia) Hj E1) as Lt. unfold pos at 1 2. cbn [fst]. split; [lra|]. symmetry. exact (line_lo (pos r) (pos r1)).
  - destruct j as [|j]; [exfalso; destruct rest; [congruence|discriminate]|].
    destruct (nth_error (r0 :: rest) j) as [r1|] eqn:E2.
    2:{ exfalso. apply nth_error_None in E2. assert (Datatypes.S j < length (r0 :: rest))%nat by (apply nth_error_Some; rewrite Hj; discriminate). lia. }
    pose proof (Inc j (Datatypes.S j) r1 r ltac:(lia) E2 Hj) as Lt.
    exists (length rest + j)%nat, (pos r1), (pos r). split; [apply P, E2|]. split; [rewrite <- (P _ _ Hj); f_equal; lia|].
    unfold pos at 1 2. cbn [fst]. split; [lra|]. symmetry. exact (line_hi (pos r1) (pos r) Lt).
Qed.
Lemma load_dac_ok rows fs N r0 : nth_error rows 0 = Some r0 -> r_f r0 = 0 -> r_mag r0 * sin (r_ph r0) = 0 -> increasing rows -> (321 <= length rows)%nat ->
  exists H, load_dac_response rows fs N = Ok H /\ length H = N /\
    (forall k, (1 <= k < N)%nat -> (2 * k <> N)%nat -> nth (N - k) H C0 = Cconj (nth k H C0)) /\
    (forall k r, (2 * k < N)%nat -> In r rows -> r_f r = INR k * fs / INR N -> nth k H C0 = (r_mag r * cos (r_ph r), r_mag r * sin (r_ph r))).
Proof.
  intros H0 F I Inc L. destruct rows as [|r0' rest]; [discriminate|]. injection H0 as ->.
  assert (Ne : rest <> []) by (destruct rest; [cbn in L; lia|discriminate]).
  unfold load_dac_response, getn. destruct (nth_error (r0 :: rest) 320) as [r320|] eqn:E; [|apply nth_error_None in E; lia]. cbn [bind].
  set (g := interp1d (dac_nodes (r0 :: rest)) (RtoC (r_mag r320))).
  eexists. split; [reflexivity|]. split; [unfold fftfreq; rewrite !map_length, seq_length; reflexivity|].
  assert (G : forall k, (k < N)%nat -> nth k (map (fun f => g (f * fs)) (fftfreq N 1)) C0 = g (bin_freq fs N k)).
  { intros k Hk. rewrite (nth_indep _ C0 (g (0 * fs))) by (unfold fftfreq; rewrite !map_length, seq_length; exact Hk).
    rewrite <- (bin_freq_eq fs N k Hk). rewrite (map_nth (fun f => g (f * fs))). f_equal.
    rewrite (nth_indep (map (fun v => v * fs) (fftfreq N 1)) 0 (0 * fs)) by (unfold fftfreq; rewrite !map_length, seq_length; exact Hk).
    rewrite (map_nth (fun f => f * fs)). reflexivity. }
  split.
  - intros k Hk Hk2. rewrite !G by lia. unfold g. rewrite <- interp_herm by (try assumption; try reflexivity). f_equal.
    unfold bin_freq. rewrite minus_INR by lia. assert (0 < INR N) by (apply lt_0_INR; lia).
    destruct (Nat.ltb_spec (2 * (N - k)) N), (Nat.ltb_spec (2 * k) N); try lia; field; lra.
  - intros k r Hk Hr Hf. rewrite G by lia. unfold bin_freq. destruct (Nat.ltb_spec (2 * k) N); [|lia].
    replace (INR k * (fs / INR N)) with (r_f r) by (rewrite Hf; unfold Rdiv; ring). unfold g. rewrite interp_node by assumption. reflexivity.
Qed.
Lemma load_dac_fill rows fs N r320 H : nth_error rows 320 = Some r320 -> load_dac_response rows fs N = Ok H ->
  forall k, (2 * k < N)%nat -> 0 <= fs -> (forall r, In r rows -> 0 <= r_f r < INR k * fs / INR N) -> nth k H C0 = (r_mag r320, 0).
Proof.
  intros E L k Hk Hf O. unfold load_dac_response, getn in L. rewrite E in L. cbn [bind] in L. injection L as <-.
  set (g := interp1d (dac_nodes rows) (RtoC (r_mag r320))).
  rewrite (nth_indep _ C0 (g (0 * fs))) by (unfold fftfreq; rewrite !map_length, seq_length; lia).
  rewrite (map_nth (fun f => g (f * fs))).
  assert (V : nth k (fftfreq N 1) 0 * fs = INR k * fs / INR N).
  { assert (Hk' : (k < N)%nat) by lia. pose proof (bin_freq_eq fs N k Hk') as B. rewrite (nth_indep _ 0 (0 * fs)) in B by (unfold fftfreq; rewrite !map_length, seq_length; lia).
    rewrite (map_nth (fun f => f * fs)) in B. rewrite B. unfold bin_freq. destruct (Nat.ltb_spec (2 * k) N); [|lia]. unfold Rdiv. ring. }
  rewrite V. unfold g, RtoC. clear g. set (v := INR k * fs / INR N) in *.
  assert (A : forall p, In p (dac_nodes rows) -> fst p < v).
  { intros p Hp. rewrite dac_nodes_eq in Hp. apply in_app_or in Hp as [Hp|Hp].
    - apply in_rev in Hp. apply in_map_iff in Hp as (r & <- & Hr). unfold refl, pos. cbn [fst].
      assert (In r rows) as Hr' by (destruct rows; [destruct Hr|right; exact Hr]). pose proof (O r Hr'). lra.
    - apply in_map_iff in Hp as (r & <- & Hr). unfold pos. cbn [fst]. apply O, Hr. }
  clear O V. set (nd := dac_nodes rows) in *. clearbody nd v. unfold interp1d. destruct nd as [|[x0 y0] nd]; [reflexivity|].
  destruct (Rlt_dec v x0) as [G|G]; [reflexivity|]. clear G E Hk.
  revert x0 y0 A. induction nd as [|[x1 y1] nd IH]; intros x0 y0 A; [reflexivity|]. cbn [interp_from].
  destruct (Rle_dec v x1) as [B|B]; [pose proof (A _ (or_intror (or_introl eq_refl))) as D; cbn [fst] in D; lra|].
  apply IH. intros q Hq. apply A. right. exact Hq.
Qed.
Lemma DAC_file des sig fs cutoff rows : ~ exists out, apply_DAC_filter des sig fs cutoff (Some rows) = Ok out.
Proof. intros (out & H). unfold apply_DAC_filter in H. destruct (load_dac_response rows fs (row_length sig)); discriminate. Qed.
Lemma combine_repeat {A B} (l : list A) (b : B) : combine l (repeat b (length l)) = map (fun x => (x, b)) l.
Proof. induction l as [|x l IH]; [reflexivity|]. cbn [length repeat combine map]. rewrite IH. reflexivity. Qed.
Lemma DAC_clip_common des sig m fs c nr ni : 0 < m -> (forall row, In row sig -> peak m row) -> 0 < c -> / 100000000 + / 100000 < Rabs (c - 1) ->
  sim_DAC_response des sig fs (mk_dac c 0 0 None) nr ni =
  Ok (Some (map (map (fun z => Cscal (/ (c * m)) (limit (c * m) (fst z), limit (c * m) (snd z)))) sig)).
Proof.
  intros Hm Hp Hc H1. rewrite (DAC_clip des sig (repeat m (length sig)) fs c nr ni).
  - rewrite combine_repeat, map_map. reflexivity.
  - clear -Hm Hp. induction sig as [|row sig IH]; cbn [length repeat]; constructor.
    + split; [exact Hm|apply Hp; left; reflexivity].
    + apply IH. intros r Hr. apply Hp. right. exact Hr.
  - exact Hc.
  - exact H1.
Qed.
Lemma tx_ideal des sig fs v nr ni m : 0 < m -> peak m (concat sig) ->
  sim_tx_response des sig fs v (mk_dac 1 0 0 None) (mk_mod (1, 0) (1, 0) (0, 0) (1 / 2) 1) nr ni =
  Ok (Some (map (map (fun z => (sin (PI / 2 * (v / m * fst z)) / 2, sin (PI / 2 * (v / m * snd z)) / 2))) sig)).
Proof.
  intros Hm Hp. unfold sim_tx_response. rewrite DAC_off.
  2:{ rewrite Rminus_diag_eq by reflexivity. rewrite Rabs_R0. lra. }
  cbn [bind]. destruct (amplifier_drive sig v) as [(m' & Hm' & Hp' & ->)|[(E & _)|(E & _)]].
  - cbn [bind]. rewrite no_nan_some. cbn [option_map m_bias m_gain m_chirp m_bias_out m_gain_out]. rewrite modulator_all. apply (f_equal (fun x => Ok (Some x))).
    pose proof (row_peak_spec _ _ Hp) as P1. pose proof (row_peak_spec _ _ Hp') as P2. rewrite P1 in P2. injection P2 as <-.
    unfold scale. rewrite map_map. apply map_ext. intros row. rewrite map_map. apply map_ext. intros z. unfold Cscal. cbn [fst snd]. reflexivity.
  - rewrite E in Hp. destruct Hp as (_ & z & [] & _).
  - pose proof (row_peak_spec _ _ Hp) as P1. pose proof (row_peak_spec _ _ E) as P2. rewrite P1 in P2. injection P2 as ->. lra.
Qed.
Lemma peak_single a : 0 <= a -> peak a [(a, 0)].
Proof. intros H. split; [intros z [<-|[]]; unfold within; cbn [fst snd]; rewrite Rabs_R0, Rabs_right by lra; lra|]. exists (a, 0). split; [left; reflexivity|left; apply Rabs_right; lra]. Qed.
