(** The periodic-pilot phase estimator: what it returns. *)
From Coq Require Import List Arith ZArith Bool Lia Reals Lra.
From Verif Require Import Common.Py Common.ListX Common.Cplx Common.SumX Common.Angle Model.Windows Model.Quality Model.Sync Model.Phase Model.PilotCpe
  Spec.Seq Spec.Equal Spec.Win Spec.Frames Spec.PhaseSpec Spec.CpeS Proofs.WindowsP Proofs.PhaseP Proofs.PhaseQ Proofs.PhaseV Proofs.PhaseR Proofs.CpeP.
Import ListNotations.
Local Open Scope R_scope.

Lemma row_len_rect {A} (m : list (list A)) L : m <> [] -> rect m L -> row_len m = L.
Proof. intros Hn H. destruct m as [|r m]; [congruence|]. unfold rect in H. cbn. rewrite Forall_forall in H. apply H. left. reflexivity. Qed.
Lemma row_len_map' {A B} (f : list A -> list B) m : m <> [] -> exists r, In r m /\ row_len (map f m) = length (f r).
Proof. destruct m as [|r m]; [congruence|]. intros _. exists r. split; [left|]; reflexivity. Qed.
Lemma used_le L nref bl u mb : (1 <= bl)%nat -> (1 <= u)%nat -> (used_blocks L nref bl u mb * bl <= L)%nat /\ (used_blocks L nref bl u mb <= nref)%nat.
Proof.
  intros Hb Hu. unfold used_blocks. split; [|apply Nat.le_min_r].
  assert (A1 : (u * (block_limit L bl mb / u) <= block_limit L bl mb)%nat) by (apply Nat.mul_div_le; lia).
  assert (A2 : (block_limit L bl mb <= L / bl)%nat) by (unfold block_limit; destruct mb; [apply Nat.le_min_l|reflexivity]).
  assert (A3 : (bl * (L / bl) <= L)%nat) by (apply Nat.mul_div_le; lia).
  assert (A4 := Nat.le_min_l (u * (block_limit L bl mb / u)) nref).
  apply Nat.le_trans with (bl * (L / bl))%nat; [|exact A3]. rewrite Nat.mul_comm. apply Nat.mul_le_mono_l. lia.
Qed.
Lemma cpe_norm rec refs L nref bl N u mb remove : (1 <= bl)%nat -> (1 <= u)%nat -> rec <> [] -> rect rec L -> refs <> [] -> rect refs nref ->
  pilot_based_cpe rec refs bl N u mb remove =
  let B := used_blocks L nref bl u mb in
  if (B <=? u)%nat then Err ValueError else
  cpe_core rec (map (fun p => stride u (firstn B p)) refs) (map (fun r => stride u (firstn B (stride bl r))) rec) (map (firstn (B * bl)) rec) bl N u remove.
Proof.
  intros Hb Hu Hrec HL Hrefs Hn. unfold pilot_based_cpe. destruct (Nat.eqb_spec bl 0); [lia|]. destruct (Nat.eqb_spec u 0); [lia|].
  rewrite (row_len_rect rec L Hrec HL), (row_len_rect refs nref Hrefs Hn), (blocks_eq L bl u mb Hu).
  destruct (used_le L nref bl u mb Hb Hu) as (U1 & U2). unfold used_blocks in *. set (nb := (u * (block_limit L bl mb / u))%nat) in *. clearbody nb. cbv zeta.
  destruct (Nat.ltb_spec nref nb) as [Hl|Hl].
  - rewrite Nat.min_r in * by lia. rewrite (row_len_rect refs nref Hrefs Hn). destruct (nref <=? u)%nat; [reflexivity|].
    assert (E1 : map (stride u) refs = map (fun p => stride u (firstn nref p)) refs).
    { apply map_ext_in. intros p Hp. unfold rect in Hn. rewrite Forall_forall in Hn. rewrite firstn_all2; [reflexivity|]. rewrite Hn by exact Hp. lia. }
    assert (E2 : map (stride u) (map (firstn nref) (map (fun r => firstn nb (stride bl r)) rec)) = map (fun r => stride u (firstn nref (stride bl r))) rec).
    { rewrite !map_map. apply map_ext. intros r. rewrite firstn_firstn, Nat.min_l by lia. reflexivity. }
    assert (E3 : map (firstn (nref * bl)) (map (firstn (bl * nb)) rec) = map (firstn (nref * bl)) rec).
    { rewrite map_map. apply map_ext. intros r. rewrite firstn_firstn, Nat.min_l by nia. reflexivity. }
    rewrite E1, E2, E3. reflexivity.
  - rewrite Nat.min_l in * by lia.
    assert (E0 : row_len (map (firstn nb) refs) = nb).
    { destruct (row_len_map' (firstn nb) refs Hrefs) as (r & Hr & ->). unfold rect in Hn. rewrite Forall_forall in Hn. rewrite firstn_length, Hn by exact Hr. lia. }
    rewrite E0. destruct (nb <=? u)%nat; [reflexivity|]. rewrite !map_map, (Nat.mul_comm bl nb). reflexivity.
Qed.
(** ** pilot removal *)
Lemma cpe_remove rec refs L nref bl N u mb : (1 <= bl)%nat -> (1 <= u)%nat -> rec <> [] -> rect rec L -> refs <> [] -> rect refs nref ->
  match pilot_based_cpe rec refs bl N u mb false with
  | Ok (full, tr) => exists out, pilot_based_cpe rec refs bl N u mb true = Ok (out, tr) /\ Forall2 (data_of bl (used_blocks L nref bl u mb)) full out
  | Err e => pilot_based_cpe rec refs bl N u mb true = Err e
  end.
Proof.
  intros Hb Hu Hrec HL Hrefs Hn. rewrite !(cpe_norm rec refs L nref bl N u mb _ Hb Hu Hrec HL Hrefs Hn). cbv zeta.
  destruct (used_le L nref bl u mb Hb Hu) as (U1 & _). set (B := used_blocks L nref bl u mb) in *. clearbody B.
  destruct (B <=? u)%nat; [reflexivity|]. unfold cpe_core. match goal with |- context [if ?b then Err ValueError else _] => destruct b; [reflexivity|] end. cbv zeta. destruct (broadcast_rows _ _) as [prs|e]; [|reflexivity]. cbn [bind].
  destruct (mapM _ (map _ prs)) as [avg|e]; [|reflexivity]. cbn [bind]. try (destruct (negb _); [reflexivity|]).
  match goal with |- context [mapM ?f ?l] => destruct (mapM f l) as [tr|e] end; [|reflexivity]. cbn [bind].
  destruct (rotate_rows _ _) as [out|e] eqn:Er; [|reflexivity]. cbn [bind]. eexists. split; [reflexivity|].
  apply rotate_rows_spec in Er as (_ & _ & (R1 & R2)). rewrite map_length in R1.
  assert (Hlen : forall r, In r out -> length r = (B * bl)%nat).
  { intros r Hr. apply In_nth_error in Hr as (k & Hk). destruct (nth_error_lt_Some rec k) as (row & Hrow); [apply nth_error_Some_lt in Hk; lia|].
    destruct (R2 k (firstn (B * bl) row)) as (r' & Q1 & Q2 & _); [rewrite nth_error_map, Hrow; reflexivity|]. assert (r' = r) by congruence. subst r'. rewrite Q2, firstn_length.
    unfold rect in HL. rewrite Forall_forall in HL. rewrite (HL row) by (eapply nth_error_In; exact Hrow). lia. }
  clear - Hlen Hb. induction out as [|r out IH]; [constructor|]. constructor.
  - apply drop_data; [exact Hb|apply Nat.mod_0_l; lia|apply Hlen; left; reflexivity].
  - apply IH. intros r' Hr'. apply Hlen. right. exact Hr'.
Qed.
(** ** one polarisation, or a number of references that is no multiple of the ratio *)
Lemma cpe_one_row rec refs L nref bl N u mb remove : (1 <= bl)%nat -> (1 <= u)%nat -> rec <> [] -> rect rec L -> refs <> [] -> rect refs nref ->
  length refs = length rec -> length rec <> 2%nat -> pilot_based_cpe rec refs bl N u mb remove = Err ValueError.
Proof.
  intros Hb Hu Hrec HL Hrefs Hn Hs H2. rewrite (cpe_norm rec refs L nref bl N u mb _ Hb Hu Hrec HL Hrefs Hn). cbv zeta.
  set (B := used_blocks L nref bl u mb) in *. clearbody B. destruct (B <=? u)%nat; [reflexivity|]. unfold cpe_core. match goal with |- context [if ?b then Err ValueError else _] => destruct b; [reflexivity|] end. cbv zeta.
  unfold broadcast_rows. rewrite !map_length, Hs, Nat.eqb_refl. cbn [bind]. set (bs := map _ (combine _ _)).
  assert (Lb : length bs = length rec) by (unfold bs; rewrite map_length, combine_length, !map_length; lia). clearbody bs.
  destruct (mapM _ bs) as [avg|e] eqn:Ea.
  - cbn [bind]. rewrite (mapM_length _ _ _ Ea), Lb. destruct (Nat.eqb_spec (length rec) 2); [contradiction|]. reflexivity.
  - cbn [bind]. clear - Ea. revert e Ea. induction bs as [|b bs IH]; intros e Ea; [discriminate|]. cbn [mapM] in Ea. unfold moving_average_real in Ea at 1. unfold moving_average in Ea at 1.
    destruct (length _ =? length _)%nat; [|cbn in Ea; congruence]. cbn [bind] in Ea. destruct (mapM _ bs) as [a|e'] eqn:E; [cbn in Ea; discriminate|]. cbn in Ea. rewrite <- (IH e' eq_refl). congruence.
Qed.
Lemma cpe_few rec refs L nref bl N u mb remove : (1 <= bl)%nat -> (1 <= u)%nat -> rec <> [] -> rect rec L -> refs <> [] -> rect refs nref ->
  (used_blocks L nref bl u mb <= u \/ strided (used_blocks L nref bl u mb) u <= N)%nat -> pilot_based_cpe rec refs bl N u mb remove = Err ValueError.
Proof.
  intros Hb Hu Hrec HL Hrefs Hn H. rewrite (cpe_norm rec refs L nref bl N u mb _ Hb Hu Hrec HL Hrefs Hn). cbv zeta.
  destruct (used_le L nref bl u mb Hb Hu) as (_ & U2). set (B := used_blocks L nref bl u mb) in *. clearbody B. destruct (Nat.leb_spec B u) as [Q|Q]; [reflexivity|].
  destruct H as [H|H]; [lia|]. unfold cpe_core. destruct (row_len_map' (fun p => stride u (firstn B p)) refs Hrefs) as (r & Hr & E). rewrite E, stride_length, firstn_length by lia.
  unfold rect in Hn. rewrite Forall_forall in Hn. rewrite (Hn r Hr), Nat.min_l by lia. unfold strided in H. destruct (Nat.leb_spec ((B + u - 1) / u) N); [reflexivity|lia].
Qed.
