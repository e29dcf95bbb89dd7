(** The periodic-pilot phase estimator. *)
From Coq Require Import List Arith ZArith Bool Lia Reals Lra.
From Verif Require Import Common.Py Common.ListX Common.Cplx Common.SumX Common.Angle Model.Windows Model.Quality Model.Sync Model.Phase Model.PilotCpe
  Spec.Seq Spec.Equal Spec.Win Spec.Frames Spec.PhaseSpec Spec.CpeS Proofs.WindowsP Proofs.PhaseP Proofs.PhaseQ Proofs.PhaseV Proofs.PhaseR.
Import ListNotations.
Local Open Scope R_scope.

Lemma blocks_eq L bl u mb : (1 <= u)%nat -> cpe_blocks L bl u mb = (u * (block_limit L bl mb / u))%nat.
Proof.
  intros Hu. unfold cpe_blocks, block_limit. cbv zeta.
  assert (E : forall b, (b - b mod u = u * (b / u))%nat) by (intros b; rewrite Nat.mod_eq by lia; assert (H := Nat.mul_div_le b u ltac:(lia)); revert H; generalize (u * (b / u))%nat; intros x H; lia).
  destruct mb as [m|]; [|apply E]. destruct (Nat.ltb_spec m (L / bl)) as [H|H]; rewrite E; [rewrite Nat.min_r by lia|rewrite Nat.min_l by lia]; reflexivity.
Qed.
(** ** pilot removal *)
Lemma drop_every_skip {A} bl : (1 <= bl)%nat -> forall (l : list A) i, (i mod bl <> 0)%nat -> (length l <= bl - i mod bl)%nat -> drop_every bl i l = l.
Proof.
  intros Hb. induction l as [|a l IH]; intros i Hi Hl; [reflexivity|]. cbn [drop_every length] in *.
  destruct (Nat.eqb_spec (i mod bl) 0) as [E|_]; [contradiction|]. destruct l as [|b l]; [reflexivity|]. f_equal. cbn [length] in *.
  assert (E : ((S i) mod bl = S (i mod bl))%nat).
  { destruct (divmod_S i bl Hb) as [(_ & _ & E)|(E & _)]; [exact E|lia]. }
  apply IH; rewrite E; lia.
Qed.
Lemma drop_every_app {A} bl (a : list A) : forall i b, drop_every bl i (a ++ b) = drop_every bl i a ++ drop_every bl (i + length a) b.
Proof.
  induction a as [|x a IH]; intros i b; [cbn; rewrite Nat.add_0_r; reflexivity|]. cbn [app drop_every length].
  rewrite IH. replace (S i + length a)%nat with (i + S (length a))%nat by lia. destruct (i mod bl =? 0)%nat; reflexivity.
Qed.
Lemma drop_block {A} bl (x : A) l i : (1 <= bl)%nat -> (i mod bl = 0)%nat -> length l = (bl - 1)%nat -> drop_every bl i (x :: l) = l.
Proof.
  intros Hb Hi Hl. cbn [drop_every]. rewrite Hi, Nat.eqb_refl. destruct l as [|y l]; [reflexivity|]. cbn [length] in Hl.
  assert (E : ((S i) mod bl = 1)%nat).
  { destruct (divmod_S i bl Hb) as [(_ & _ & E)|(E & _)]; [lia|lia]. }
  apply drop_every_skip; [exact Hb|lia|cbn [length]; lia].
Qed.
Lemma drop_data {A} bl : (1 <= bl)%nat -> forall B (l : list A) i, (i mod bl = 0)%nat -> length l = (B * bl)%nat -> data_of bl B l (drop_every bl i l).
Proof.
  intros Hb. induction B as [|B IH]; intros l i Hi Hl.
  - destruct l; [|cbn in Hl; lia]. split; [reflexivity|lia].
  - destruct l as [|x l]; [cbn in Hl; lia|].
    assert (Ex : x :: l = (x :: firstn (bl - 1) l) ++ skipn (bl - 1) l) by (cbn [app]; rewrite firstn_skipn; reflexivity).
    assert (Lf : length (firstn (bl - 1) l) = (bl - 1)%nat) by (rewrite firstn_length; cbn [length] in Hl; lia).
    assert (Ls : length (skipn (bl - 1) l) = (B * bl)%nat) by (rewrite skipn_length; cbn [length] in Hl; lia).
    rewrite Ex at 2. rewrite drop_every_app, drop_block by assumption. cbn [length]. rewrite Lf.
    assert (Hi' : ((i + S (bl - 1)) mod bl = 0)%nat).
    { replace (i + S (bl - 1))%nat with (i + 1 * bl)%nat by lia. rewrite Nat.mod_add by lia. exact Hi. }
    destruct (IH (skipn (bl - 1) l) (i + S (bl - 1))%nat Hi' Ls) as (D1 & D2). split.
    + rewrite app_length, Lf, D1, Nat.mul_succ_l. lia.
    + intros b j Hbb Hj. destruct b as [|b].
      * cbn [Nat.mul Nat.add]. rewrite nth_error_app1 by lia. rewrite nth_error_firstn_lt by lia. reflexivity.
      * replace (S b * (bl - 1) + j)%nat with (bl - 1 + (b * (bl - 1) + j))%nat by (rewrite Nat.mul_succ_l; lia). rewrite nth_error_app2 by (rewrite Lf; apply Nat.le_add_r).
        rewrite Lf, (Nat.add_comm (bl - 1)), Nat.add_sub.
        rewrite D2 by lia. rewrite nth_error_skipn'. replace (S b * bl + 1 + j)%nat with (S (bl - 1 + (b * bl + 1 + j)))%nat by (rewrite Nat.mul_succ_l; lia). reflexivity.
Qed.
(** ** one row *)
Lemma phases_row n h phi c : (2 * h + 1 <= n)%nat ->
  cpe_phases (2 * h + 1) (frow n (fun q => phi q + c)) (frow (n + 1 - (2 * h + 1)) (fun i => mean_at (fun q => phi q + c) i (2 * h + 1)))
  = frow n (fun q => edge_mean phi n h q + c).
Proof.
  intros Hn. unfold cpe_phases. cbv zeta. replace ((2 * h + 1 - 1) / 2)%nat with h by (replace (2 * h + 1 - 1)%nat with (h * 2)%nat by lia; rewrite Nat.div_mul; lia).
  replace (n + 1 - (2 * h + 1))%nat with (n - 2 * h)%nat by lia.
  set (g := fun i => mean_at (fun q => phi q + c) i (2 * h + 1)).
  assert (Hlast : last (frow (n - 2 * h) g) 0 = g (n - 2 * h - 1)%nat).
  { unfold frow. replace (n - 2 * h)%nat with (S (n - 2 * h - 1)) at 1 by lia. rewrite seq_S, map_app. cbn [map]. rewrite last_last. reflexivity. }
  rewrite Hlast. apply nth_error_ext_lt.
  - rewrite !app_length, firstn_length, repeat_length, !frow_length. lia.
  - intros i Hi. rewrite !app_length, firstn_length, repeat_length, !frow_length in Hi. rewrite (frow_nth n) by lia. unfold edge_mean.
    destruct (Nat.ltb_spec i h) as [L|L].
    + rewrite nth_error_app1 by (rewrite firstn_length, frow_length; lia). rewrite nth_error_firstn_lt, frow_nth by lia. reflexivity.
    + rewrite nth_error_app2 by (rewrite firstn_length, frow_length; lia). rewrite firstn_length, frow_length.
      replace (Nat.min h n) with h by lia. destruct (Nat.lt_ge_cases (i - h) (n - 2 * h)) as [L2|L2].
      * rewrite nth_error_app1 by (rewrite frow_length; lia). rewrite frow_nth by lia. unfold g. rewrite mean_at_add by lia.
        replace (Nat.min i (n - 1 - h) - h)%nat with (i - h)%nat by lia. reflexivity.
      * rewrite nth_error_app2 by (rewrite frow_length; lia). rewrite frow_length, nth_error_repeat by lia. unfold g. rewrite mean_at_add by lia.
        replace (Nat.min i (n - 1 - h) - h)%nat with (n - 2 * h - 1)%nat by lia. reflexivity.
Qed.
Lemma trace_row n d (v : nat -> R) T : (1 <= n)%nat -> (1 <= d)%nat ->
  exists tr, mapM (interp (combine (map (fun q => (q * d)%nat) (seq 0 n)) (frow n v))) (seq 0 T) = Ok tr /\ length tr = T /\
    forall t, (t < T)%nat -> exists y, nth_error tr t = Some y /\ interpolates (fun q => (q * d)%nat) v 0 (n - 1) t y.
Proof.
  intros Hn Hd. unfold frow. rewrite PhaseP.combine_map_seq. assert (En : seq 0 n = seq 0 (S (n - 1))) by (f_equal; lia). rewrite En. clear En.
  assert (HI : forall t, exists y, interp (map (fun q => ((q * d)%nat, v q)) (seq 0 (S (n - 1)))) t = Ok y /\ interpolates (fun q => (q * d)%nat) v 0 (n - 1) t y).
  { intros t. apply (interp_ok (fun q => (q * d)%nat) v t (n - 1) 0). intros q Hq. nia. }
  set (f := interp (map (fun q => ((q * d)%nat, v q)) (seq 0 (S (n - 1))))) in *.
  assert (HM : forall l, exists tr, mapM f l = Ok tr /\ length tr = length l).
  { induction l as [|t l (tr & E & L)]; [exists []; split; reflexivity|]. destruct (HI t) as (y & Ey & _). exists (y :: tr). cbn [mapM]. rewrite Ey, E. cbn. split; congruence. }
  destruct (HM (seq 0 T)) as (tr & E & L). rewrite seq_length in L. exists tr. split; [exact E|]. split; [exact L|]. intros t Ht.
  destruct (mapM_nth f _ _ t t E) as (y & Y1 & Y2). { rewrite nth_error_seq by exact Ht. reflexivity. }
  exists y. split; [exact Y1|]. destruct (HI t) as (y' & Y3 & Y4). assert (y = y') by congruence. subst y'. exact Y4.
Qed.
Lemma picked_row (row prow : list C) bl u n (ph : nat -> R) B : (1 <= bl)%nat -> (1 <= u)%nat -> B = (u * n)%nat -> (B * bl <= length row)%nat -> (B <= length prow)%nat ->
  (forall q, (q < n)%nat -> exists a rho, nth_error prow (q * u) = Some a /\ a <> C0 /\ 0 < rho /\ nth_error row (q * (bl * u)) = Some (Cscal rho (a * Cexpi (ph (q * (bl * u))%nat))%C)) ->
  length (stride u (firstn B prow)) = n /\
  received (stride u (firstn B prow)) (stride u (firstn B (stride bl row))) (fun q => ph (q * (bl * u))%nat).
Proof.
  intros Hb Hu HB Hr Hp H.
  assert (Hdiv : forall m k, (1 <= k)%nat -> ((k * m + k - 1) / k = m)%nat).
  { intros m k Hk. symmetry. apply (Nat.div_unique _ k m (k - 1)); lia. }
  assert (L0 : (B <= length (stride bl row))%nat).
  { rewrite stride_length by lia. apply Nat.div_le_lower_bound; [lia|]. nia. }
  assert (L1 : length (stride u (firstn B prow)) = n).
  { rewrite stride_length, firstn_length by lia. replace (Nat.min B (length prow)) with (u * n)%nat by lia. apply Hdiv; lia. }
  assert (L2 : length (stride u (firstn B (stride bl row))) = n).
  { rewrite stride_length, firstn_length by lia. replace (Nat.min B (length (stride bl row))) with (u * n)%nat by lia. apply Hdiv; lia. }
  split; [exact L1|]. split; [congruence|]. intros q a Ha. assert (Hq : (q < n)%nat) by (rewrite <- L1; eapply nth_error_Some_lt; exact Ha).
  assert (HqB : (q * u < B)%nat) by nia.
  rewrite stride_nth, nth_error_firstn_lt in Ha by lia. destruct (H q Hq) as (a' & rho & A1 & A2 & A3 & A4).
  assert (a' = a) by congruence. subst a'. split; [exact A2|]. exists rho. split; [exact A3|].
  rewrite stride_nth, nth_error_firstn_lt, stride_nth by lia. rewrite <- A4. f_equal. lia.
Qed.
Lemma base_row refs rec phi n : length refs = n -> (1 <= n)%nat -> received refs rec phi -> (forall q, (S q < n)%nat -> Rabs (phi (S q) - phi q) < PI) ->
  exists c, turns c /\ unwrap (phase_diff refs rec) = frow n (fun q => phi q + c).
Proof.
  intros Hl Hn Hr Hs. destruct (phase_diff_received _ _ _ Hr) as (f & Hf & Ht). rewrite Hl in *. exists (f 0%nat - phi 0%nat).
  split; [apply Ht; lia|]. rewrite Hf. apply unwrap_tracks; assumption.
Qed.
