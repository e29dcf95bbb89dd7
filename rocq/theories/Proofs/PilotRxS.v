From Coq Require Import List ZArith Arith Bool Reals Lia Lra ZifyBool ZifyNat Permutation.
From Verif Require Import Common.Py Common.ListX Common.Cplx Common.SumX Model.Constellation Model.Decision Model.Sync Model.Pilots Model.Equaliser Model.Phase
  Model.Quality Model.PilotRx Spec.Seq Spec.Equal Spec.PilotSpec Proofs.SyncP Proofs.SyncQ Proofs.PilotRxP Proofs.PilotRxQ.
Import ListNotations.
Open Scope list_scope.

(** ** shift_signal *)
Lemma shift_several {A} (sig : list (list A)) shifts : 2 <= length shifts <= length sig -> Forall (fun r => r <> []) sig ->
  exists out, shift_signal sig shifts = Ok out /\ length out = length sig /\
    (forall m, m < length shifts -> length (nth m out []) = length (nth m sig []) /\
       delayed_repetition (nth m sig []) (- nth m shifts 0%Z) (nth m out [])) /\
    (forall m, length shifts <= m -> nth_error out m = nth_error sig m).
Proof.
  intros Hl Hne. unfold shift_signal. destruct shifts as [|a [|b shifts]]; cbn [length] in *; try lia.
  set (sh := a :: b :: shifts). change (S (S (length shifts))) with (length sh) in *.
  replace (length sig <? length sh) with false by lia. eexists. split; [reflexivity|].
  set (f := fun p : Z * list A => roll (- fst p) (snd p)).
  assert (Hlen : length (map f (combine sh sig)) = length sh) by (rewrite map_length, combine_length; lia).
  split; [rewrite app_length, Hlen, skipn_length; lia|]. split.
  - intros m Hm. assert (E : nth m (map f (combine sh sig) ++ skipn (length sh) sig) [] = roll (- nth m sh 0%Z) (nth m sig [])).
    { rewrite app_nth1 by lia. apply nth_error_nth. rewrite nth_error_map.
      rewrite (nth_error_nth' _ (0%Z, [])) by (rewrite combine_length; lia). cbn [option_map]. apply (f_equal Some).
      assert (Hc : nth m (combine sh sig) (0%Z, []) = (nth m sh 0%Z, nth m sig [])).
      { clear - Hm Hl. destruct Hl as [_ Hl]. revert sig m Hl Hm. induction sh as [|s sh IH]; intros [|r sig] m Hl Hm; cbn in *; try lia.
        destruct m as [|m]; [reflexivity|]. apply IH; lia. }
      rewrite Hc. reflexivity. }
    rewrite E. assert (Hn : nth m sig [] <> []). { eapply Forall_forall in Hne; [exact Hne|]. apply nth_In. lia. }
    destruct (roll_delayed (nth m sig []) (- nth m sh 0%Z) Hn) as [H1 H2]. auto.
  - intros m Hm. rewrite nth_error_app2 by lia. rewrite Hlen. clear - Hm. revert sig m Hm. induction (length sh) as [|k IH]; intros sig m Hm.
    + rewrite Nat.sub_0_r. reflexivity.
    + destruct sig as [|r sig]; [destruct (m - S k), m; reflexivity|]. destruct m as [|m]; [lia|]. cbn [skipn]. rewrite Nat.sub_succ. exact (IH sig m ltac:(lia)).
Qed.
Lemma shift_single {A} (sig : list (list A)) s : Forall (fun r => r <> []) sig ->
  exists out, shift_signal sig [s] = Ok out /\ Forall2 (fun r o => length o = length r /\ delayed_repetition r s o) sig out.
Proof.
  intros Hne. exists (map (roll s) sig). split; [reflexivity|]. induction sig as [|r sig IH]; [constructor|].
  inversion Hne; subst. cbn [map]. constructor; [|auto]. destruct (roll_delayed r s) as [H1' H2']; [assumption|]. auto.
Qed.
Lemma correct_shifts_even shifts (nt sy os : nat) : 0 < os ->
  ((Z.of_nat nt - Z.of_nat sy) mod Z.of_nat os = 0)%Z -> ((Z.of_nat nt - Z.of_nat sy) mod 2 = 0)%Z ->
  correct_shifts shifts (Z.of_nat sy) (Z.of_nat nt) (Z.of_nat os) = Ok (map (fun s => s - extra nt sy)%Z shifts).
Proof.
  intros Ho H1 H2. unfold correct_shifts. replace (Z.of_nat os =? 0)%Z with false by lia. rewrite H1. cbn [Z.eqb negb].
  apply (f_equal Ok). apply map_ext. intros s. unfold extra. f_equal.
  set (d := (Z.of_nat nt - Z.of_nat sy)%Z) in *. clearbody d.
  pose proof (Z.div_mod d 2 ltac:(lia)) as E. rewrite H2, Z.add_0_r in E.
  rewrite E at 1. rewrite Z.mul_comm, Z.quot_mul by lia. reflexivity.
Qed.

(** ** pilot equaliser *)
Lemma clipz_min n i : (0 <= i)%Z -> (0 <= n)%Z -> clipz n i = Z.min n i.
Proof. intros H Hn. unfold clipz. replace (i <? 0)%Z with false by lia. cbv zeta. lia. Qed.
Lemma pyslice_window {A} (l : list A) s n : (0 <= s)%Z -> pyslice s (s + Z.of_nat n) l = window l (Z.to_nat s) n.
Proof.
  intros Hs. unfold pyslice, window. rewrite !clipz_min by lia.
  destruct (Z_le_gt_dec (Z.of_nat (length l)) s) as [H|H].
  - rewrite !Z.min_l by lia. rewrite Z.sub_diag. cbn [Z.to_nat firstn]. rewrite (skipn_all2 (n := Z.to_nat s)) by lia. now rewrite firstn_nil.
  - rewrite (Z.min_r _ s) by lia.
    destruct (Z_le_gt_dec (s + Z.of_nat n) (Z.of_nat (length l))) as [H'|H'].
    + rewrite Z.min_r by lia. f_equal. lia.
    + rewrite Z.min_l by lia. rewrite !firstn_all2; [reflexivity| |]; rewrite skipn_length; lia.
Qed.
Lemma window_skip {A} (l : list A) d s n : window l (d + s) n = window (skipn d l) s n.
Proof. unfold window. f_equal. revert l. induction d as [|d IH]; intros l; [reflexivity|]. destruct l as [|a l]; [destruct s; reflexivity|]. apply IH. Qed.
Lemma fold_left_ext {A B} (f g : A -> B -> A) l : (forall a b, f a b = g a b) -> forall a, fold_left f l a = fold_left g l a.
Proof. intros H. induction l as [|b l IH]; intros a; [reflexivity|]. cbn. rewrite H. apply IH. Qed.
Lemma getn_Forall2 {A B} (R : A -> B -> Prop) l l' i : Forall2 R l l' ->
  (exists a b, getn l i = Ok a /\ getn l' i = Ok b /\ R a b) \/ (getn l i = Err IndexError /\ getn l' i = Err IndexError).
Proof.
  intros H. revert i. induction H as [|a b l l' Hab H IH]; intros i.
  - right. destruct i; split; reflexivity.
  - destruct i as [|i]; [left; exists a, b; auto|]. apply (IH i).
Qed.
Section PE.
Variable pre : list (list C) -> option nat -> option taps -> result (list (list C) * taps).
Variable post : nat -> list (list C) -> option nat -> taps -> result taps.
Variable foe : list (list C) -> list (list C) -> result R.

Lemma eps_window rows rows' ref sh sh' os nt fc wx : length rows = length rows' -> several sh = several sh' ->
  Forall2 (fun s s' => wslice rows s (s + Z.of_nat (row_len ref * os) + Z.of_nat nt - 1) =
                       wslice rows' s' (s' + Z.of_nat (row_len ref * os) + Z.of_nat nt - 1)) sh sh' ->
  equalize_pilot_sequence pre post foe rows ref sh os nt fc wx = equalize_pilot_sequence pre post foe rows' ref sh' os nt fc wx.
Proof.
  intros Hl Hs HW. unfold equalize_pilot_sequence. cbv zeta. rewrite Hl, Hs.
  set (f1 := fun (acc : result (list (list C) * option taps)) i => _). 
  set (f2 := fun (acc : result (list (list C) * option taps)) i => let! a := acc in let! s := getn sh' i in _).
  assert (H12 : forall a i, f1 a i = f2 a i).
  { intros a i. unfold f1, f2. destruct a as [a|e]; [|reflexivity]. cbn [bind].
    destruct (getn_Forall2 _ _ _ i HW) as [(s & s' & -> & -> & E)|[-> ->]]; [|reflexivity]. cbn [bind]. rewrite E. reflexivity. }
  rewrite (fold_left_ext f1 f2 _ H12).
  assert (H0 : forall (T : Type) (k : list (list C) -> result T), (let! s := getn sh 0 in k (wslice rows s (s + Z.of_nat (row_len ref * os) + Z.of_nat nt - 1))) =
                      (let! s := getn sh' 0 in k (wslice rows' s (s + Z.of_nat (row_len ref * os) + Z.of_nat nt - 1)))).
  { intros T k. destruct (getn_Forall2 _ _ _ 0 HW) as [(s & s' & -> & -> & E)|[-> ->]]; [|reflexivity]. cbn [bind]. rewrite E. reflexivity. }
  rewrite (H0 _ (fun w => pre w None wx)). set (p := if several sh' then _ else _). destruct p as [p|e]; [|reflexivity]. cbn [bind].
  set (f := if fc then _ else _). destruct f as [f|e]; [|reflexivity]. cbn [bind].
  rewrite (H0 _ (fun w => let! x := (if fc then comp_freq_offset w f (INR os) else Ok w) in let! w1 := post 0 x None (snd p) in post 1 x None w1)).
  set (g1 := fun (acc : result taps) i => _).
  set (g2 := fun (acc : result taps) i => let! a := acc in let! s := getn sh' i in _).
  assert (G12 : forall a i, g1 a i = g2 a i).
  { intros a i. unfold g1, g2. destruct a as [a|e]; [|reflexivity]. cbn [bind].
    destruct (getn_Forall2 _ _ _ i HW) as [(s & s' & -> & -> & E)|[-> ->]]; [|reflexivity]. cbn [bind]. rewrite E. reflexivity. }
  rewrite (fold_left_ext g1 g2 _ G12). reflexivity.
Qed.
Lemma eps_foe_len rows ref sh os nt fc wx w f : equalize_pilot_sequence pre post foe rows ref sh os nt fc wx = Ok (w, f) -> length f = length rows.
Proof.
  unfold equalize_pilot_sequence. cbv zeta. intros H. destruct (if several sh then _ else _) as [p|]; [|discriminate]. cbn [bind] in H.
  destruct fc.
  - destruct (foe (fst p) ref) as [v|]; [|discriminate]. cbn [bind] in H. destruct (if several sh then _ else _); [|discriminate]. cbn in H.
    injection H as _ <-. apply repeat_length.
  - cbn [bind] in H. destruct (if several sh then _ else _); [|discriminate]. cbn in H. injection H as _ <-. apply repeat_length.
Qed.
Lemma foc_total rows f os : length f = length rows -> exists out, comp_freq_offset rows f os = Ok out.
Proof.
  intros H. unfold comp_freq_offset.
  assert (G : forall n a, a + n <= length rows -> exists out, mapM (fun l => let! row := getn rows l in let! f := getn f l in
     Ok (map (fun p => (snd p * Cexpi (- (2 * PI * INR (fst p) * f / os)))%C) (combine (seq 1 (length row)) row))) (seq a n) = Ok out).
  { induction n as [|n IH]; intros a Ha; [exists []; reflexivity|]. cbn [seq mapM]. unfold getn at 1 2.
    rewrite (nth_error_nth' rows []) by lia. rewrite (nth_error_nth' f 0%R) by lia. cbn [bind].
    destruct (IH (S a) ltac:(lia)) as (o & ->). cbn [bind]. eauto. }
  apply G. lia.
Qed.
(** training only *)
Definition train_only rows ref os fl shifts sy nt fc wx frame := pilot_equaliser pre post foe rows ref os fl (Some shifts) sy nt false fc wx frame false.
Definition eff_taps (nt : nat) (wx : option taps) := match wx with Some w => taps_len w | None => nt end.
Definition eq_shifts (shifts : list Z) nt sy os fl frame : list Z :=
  if nt =? sy then shifts else map (fun s => s - extra nt sy + Z.of_nat (os * fl * frame))%Z shifts.
Lemma pe_eq rows ref os fl shifts sy nt fc wx frame : ((Z.of_nat (eff_taps nt wx) - Z.of_nat sy) mod 2 = 0)%Z ->
  train_only rows ref os fl shifts sy nt fc wx frame =
  let n := eff_taps nt wx in
  let eq := eq_shifts shifts n sy os fl frame in
  let! m := zmax eq in
  if negb (Z.of_nat (fl * os) <? Z.of_nat (row_len rows) - m)%Z then Err AssertionError else
  let! tf := equalize_pilot_sequence pre post foe rows ref eq os n fc wx in Ok (PE_taps (fst tf)).
Proof.
  intros H. unfold train_only, pilot_equaliser. fold (eff_taps nt wx). rewrite H. cbn [Z.eqb negb]. unfold eq_shifts, extra.
  set (eq := if _ =? sy then _ else _). cbv zeta. destruct (zmax eq) as [m|]; [|reflexivity]. cbn [bind].
  destruct (negb _); [reflexivity|].
  destruct (equalize_pilot_sequence _ _ _ _ _ _ _ _ _ _) as [[w f]|] eqn:E; [|reflexivity]. cbn [bind fst snd].
  destruct fc; [|reflexivity]. apply eps_foe_len in E. destruct (foc_total rows f (INR os) E) as (o & ->). reflexivity.
Qed.
Lemma several_shift l d : several (map (fun s => s + d)%Z l) = several l.
Proof.
  destruct l as [|a l]; [reflexivity|]. cbn [map several]. induction l as [|b l IH]; [reflexivity|]. cbn [map existsb]. rewrite IH. f_equal. f_equal. lia.
Qed.
Lemma zmax_shift l d : zmax (map (fun s => s + d)%Z l) = let! m := zmax l in Ok (m + d)%Z.
Proof.
  destruct l as [|a l]; [reflexivity|]. cbn [map zmax bind]. apply (f_equal Ok). revert a. induction l as [|b l IH]; intros a; [reflexivity|].
  cbn [map fold_left]. rewrite <- IH. f_equal. lia.
Qed.
Lemma drop_len (rows : list (list C)) d : length (drop d rows) = length rows.
Proof. apply map_length. Qed.
Lemma drop_row_len (rows : list (list C)) d : row_len (drop d rows) = row_len rows - d.
Proof. destruct rows as [|r rows]; [reflexivity|]. apply skipn_length. Qed.

Lemma pe_frame rows ref os fl shifts sy nt fc wx frame : let n := eff_taps nt wx in
  1 <= n -> n <> sy -> Forall (fun s => extra n sy <= s)%Z shifts ->
  train_only rows ref os fl shifts sy nt fc wx frame =
  train_only (drop (os * fl * frame) rows) ref os fl shifts sy nt fc wx 0.
Proof.
  intros n Hn Hne Hs.
  destruct (Z.eq_dec ((Z.of_nat (eff_taps nt wx) - Z.of_nat sy) mod 2) 0) as [He|He].
  2:{ unfold train_only, pilot_equaliser. fold (eff_taps nt wx). replace (_ mod 2 =? 0)%Z with false by lia. reflexivity. }
  rewrite !pe_eq by exact He. cbv zeta. fold n.
  set (d := os * fl * frame).
  assert (E1 : eq_shifts shifts n sy os fl frame = map (fun s => s + Z.of_nat d)%Z (map (fun s => s - extra n sy)%Z shifts)).
  { unfold eq_shifts. replace (n =? sy) with false by lia. rewrite map_map. reflexivity. }
  assert (E0 : eq_shifts shifts n sy os fl 0 = map (fun s => s - extra n sy)%Z shifts).
  { unfold eq_shifts. replace (n =? sy) with false by lia. apply map_ext. intros s. lia. }
  rewrite E1, E0. set (sh := map (fun s => s - extra n sy)%Z shifts).
  assert (Hsh : Forall (fun s => 0 <= s)%Z sh) by (apply Forall_map; eapply Forall_impl; [|exact Hs]; cbn; intros; lia).
  rewrite zmax_shift. destruct (zmax sh) as [m|] eqn:Em; [|reflexivity]. cbn [bind]. rewrite drop_row_len.
  assert (Hm : (0 <= m)%Z).
  { destruct (zmax_spec sh) as (m' & E & Hi & _); [destruct sh; discriminate|]. rewrite Em in E. injection E as <-. eapply Forall_forall in Hsh; [|exact Hi]. exact Hsh. }
  replace (Z.of_nat (fl * os) <? Z.of_nat (row_len rows - d) - m)%Z with (Z.of_nat (fl * os) <? Z.of_nat (row_len rows) - (m + Z.of_nat d))%Z by lia.
  destruct (negb _); [reflexivity|].
  rewrite (eps_window rows (drop d rows) ref (map (fun s => s + Z.of_nat d)%Z sh) sh); [reflexivity|symmetry; apply drop_len|apply several_shift|].
  clear - Hsh Hn. induction Hsh as [|s sh Hs Hsh IH]; [constructor|]. cbn [map]. constructor; [|exact IH].
  unfold wslice, drop. rewrite map_map. apply map_ext. intros r.
  set (N := row_len ref * os). replace (s + Z.of_nat d + Z.of_nat N + Z.of_nat n - 1)%Z with (s + Z.of_nat d + Z.of_nat (N + n - 1))%Z by lia.
  replace (s + Z.of_nat N + Z.of_nat n - 1)%Z with (s + Z.of_nat (N + n - 1))%Z by lia.
  rewrite !pyslice_window by lia. rewrite <- window_skip. f_equal. lia.
Qed.
Lemma pe_window rows rows' p L ref os fl shifts sy nt fc wx frame : let n := eff_taps nt wx in
  1 <= n -> shape rows p L -> shape rows' p L ->
  (forall s, In s (eq_shifts shifts n sy os fl frame) -> (0 <= s)%Z /\ agree_on rows rows' (Z.to_nat s) (row_len ref * os + n - 1)) ->
  train_only rows ref os fl shifts sy nt fc wx frame = train_only rows' ref os fl shifts sy nt fc wx frame.
Proof.
  intros n Hn [Hp HR] [Hp' HR'] HA.
  destruct (Z.eq_dec ((Z.of_nat (eff_taps nt wx) - Z.of_nat sy) mod 2) 0) as [He|He].
  2:{ unfold train_only, pilot_equaliser. fold (eff_taps nt wx). replace (_ mod 2 =? 0)%Z with false by lia. reflexivity. }
  rewrite !pe_eq by exact He. cbv zeta. fold n. set (sh := eq_shifts shifts n sy os fl frame) in *.
  assert (Hrl : row_len rows = row_len rows').
  { destruct rows as [|r rows], rows' as [|r' rows']; cbn in *; try congruence; try lia. inversion HR; inversion HR'; subst. congruence. }
  rewrite Hrl. destruct (zmax sh) as [m|]; [|reflexivity]. cbn [bind]. destruct (negb _); [reflexivity|].
  rewrite (eps_window rows rows' ref sh sh); [reflexivity|congruence|reflexivity|].
  clear - HA Hn. induction sh as [|s sh IH]; [constructor|]. constructor; [|apply IH; intros t Ht; apply HA; right; exact Ht].
  destruct (HA s ltac:(left; reflexivity)) as [Hs HW]. clear - Hs HW Hn. unfold wslice.
  replace (s + Z.of_nat (row_len ref * os) + Z.of_nat n - 1)%Z with (s + Z.of_nat (row_len ref * os + n - 1))%Z by lia.
  induction HW as [|r r' rows rows' Hr HW IH]; [reflexivity|]. cbn [map]. rewrite !pyslice_window by exact Hs. rewrite Hr. f_equal. exact IH.
Qed.
Lemma pe_frame_ignored rows ref os fl shifts sy nt fc wx frame v : eff_taps nt wx = sy ->
  pilot_equaliser pre post foe rows ref os fl (Some shifts) sy nt false fc wx frame v =
  pilot_equaliser pre post foe rows ref os fl (Some shifts) sy nt false fc wx 0 v.
Proof.
  intros H. unfold pilot_equaliser. fold (eff_taps nt wx). rewrite H, Nat.eqb_refl. reflexivity.
Qed.
(** a start before the first sample: the windows are empty *)
Lemma pe_negative rows rows' p L ref os fl shifts sy nt fc wx : let n := eff_taps nt wx in
  shape rows p L -> shape rows' p L ->
  (forall s, In s shifts -> s < extra n sy /\ 0 <= s - extra n sy + Z.of_nat (row_len ref * os + n) - 1)%Z ->
  1 <= n -> row_len ref * os + n - 1 <= L -> n <> sy ->
  train_only rows ref os fl shifts sy nt fc wx 0 = train_only rows' ref os fl shifts sy nt fc wx 0.
Proof.
  intros n [Hp HR] [Hp' HR'] HA Hn HL Hne.
  destruct (Z.eq_dec ((Z.of_nat (eff_taps nt wx) - Z.of_nat sy) mod 2) 0) as [He|He].
  2:{ unfold train_only, pilot_equaliser. fold (eff_taps nt wx). replace (_ mod 2 =? 0)%Z with false by lia. reflexivity. }
  rewrite !pe_eq by exact He. cbv zeta. fold n.
  assert (E0 : eq_shifts shifts n sy os fl 0 = map (fun s => s - extra n sy)%Z shifts).
  { unfold eq_shifts. replace (n =? sy) with false by lia. apply map_ext. intros s. lia. }
  rewrite E0. set (sh := map _ shifts).
  assert (Hrl : row_len rows = row_len rows').
  { destruct rows as [|r rows], rows' as [|r' rows']; cbn in *; try congruence; try lia. inversion HR; inversion HR'; subst. congruence. }
  rewrite Hrl. destruct (zmax sh) as [m|]; [|reflexivity]. cbn [bind]. destruct (negb _); [reflexivity|].
  rewrite (eps_window rows rows' ref sh sh); [reflexivity|congruence|reflexivity|].
  assert (Hempty : forall s (r : list C), In s sh -> length r = L -> pyslice s (s + Z.of_nat (row_len ref * os) + Z.of_nat n - 1) r = []).
  { intros s r Hs Hr. unfold sh in Hs. apply in_map_iff in Hs as (s0 & <- & Hs0). destruct (HA s0 Hs0) as [H1 H2].
    set (k := row_len ref * os) in *. clearbody k. unfold pyslice. rewrite Hr.
    set (z := (clipz _ _ - clipz _ _)%Z). assert (Hz : (z <= 0)%Z).
    { unfold z. rewrite (clipz_min _ (s0 - extra n sy + Z.of_nat k + Z.of_nat n - 1)) by lia. unfold clipz. replace (s0 - extra n sy <? 0)%Z with true by lia. cbv zeta. lia. }
    replace (Z.to_nat z) with 0 by lia. reflexivity. }
  assert (Hw : forall s (X : list (list C)), In s sh -> rect X L -> wslice X s (s + Z.of_nat (row_len ref * os) + Z.of_nat n - 1) = repeat [] (length X)).
  { intros s X Hs HX. unfold wslice. induction X as [|r X IH]; [reflexivity|]. inversion HX; subst. cbn [map length repeat]. rewrite Hempty by auto. f_equal. apply IH. assumption. }
  assert (G : forall l, (forall s, In s l -> In s sh) -> Forall2 (fun s s' => wslice rows s (s + Z.of_nat (row_len ref * os) + Z.of_nat n - 1) =
                       wslice rows' s' (s' + Z.of_nat (row_len ref * os) + Z.of_nat n - 1)) l l).
  { induction l as [|s l IH]; intros Hl; [constructor|]. constructor; [|apply IH; intros t Ht; apply Hl; right; exact Ht].
    rewrite !Hw by (auto; apply Hl; left; reflexivity). f_equal. congruence. }
  apply G. auto.
Qed.
Lemma pe_verbose rows ref os fl shifts sy nt fc wx frame o :
  pilot_equaliser pre post foe rows ref os fl shifts sy nt false fc wx frame true = Ok o -> o = PE_None.
Proof.
  unfold pilot_equaliser. destruct shifts as [sh|]; [|discriminate]. destruct (negb _); [discriminate|].
  destruct (zmax _); [|discriminate]. cbn [bind]. destruct (negb _); [discriminate|].
  destruct (equalize_pilot_sequence _ _ _ _ _ _ _ _ _ _) as [tf|]; [|discriminate]. cbn [bind].
  destruct (if fc then _ else _); [|discriminate]. cbn [bind]. intros H. injection H as <-. reflexivity.
Qed.
Lemma nframes_verbose rows ref os fl shifts sy nt fc frames wx o :
  pilot_equaliser_nframes pre post foe rows ref os fl shifts sy nt false fc frames wx true <> Ok o.
Proof.
  unfold pilot_equaliser_nframes. destruct shifts as [sh|]; [|discriminate]. destruct (zmax sh); [|discriminate]. cbn [bind].
  destruct frames as [|f frames]; [discriminate|]. destruct (zmax _); [|discriminate]. cbn [bind]. destruct (negb _); [discriminate|].
  destruct (nframes_loop _ _ _ _ _ _ _ _ _ _ _ _ _ _ _) as [r|] eqn:E; [|discriminate]. cbn [bind nframes_loop] in *.
  destruct (pilot_equaliser _ _ _ _ _ _ _ _ _ _ _ _ _ _ _) as [ret|] eqn:Ep; [|discriminate]. apply pe_verbose in Ep. subst ret. cbn [bind] in E.
  destruct (if f =? 0 then _ else _); [|discriminate]. cbn [bind] in E. destruct (nframes_loop _ _ _ _ _ _ _ _ _ _ _ _ _ _ _); [|discriminate].
  cbn [bind] in E. injection E as <-. cbn [existsb orb]. discriminate.
Qed.
End PE.

(** ** GMI with the SNR of the pilots *)
Lemma all_some_map {A} (l : list A) : all_some (map Some l) = Some l.
Proof. induction l as [|a l IH]; [reflexivity|]. cbn. rewrite IH. reflexivity. Qed.
Lemma pilot_gmi_eq mp k symbols data synced pmp psym prx sg : pilot_est_snr pmp psym prx = Ok (map Some sg) ->
  pilot_cal_gmi mp k symbols data synced pmp psym prx None true = cal_gmi mp k symbols data synced (Some sg) false.
Proof. intros H. unfold pilot_cal_gmi. rewrite H. cbn [bind]. rewrite all_some_map. reflexivity. Qed.

Definition m1 : C := (-1, 0)%R.
Definition bpsk : mapping := {| coded_symbols := [C1; m1]; graycode := [0%N; 1%N]; encoding := [[false]; [true]]; bitmap_mtx := [([C1], [m1])] |}.
Definition g_of (s : R) : R := (1 - log2 (1 + exp (- (4 * s))))%R.
Lemma bpsk_gmi x : cal_gmi bpsk 1 [[C1]] [[C1]] true (Some [x]) false = Ok [Some [g_of (pow10 (x / 10))]].
Proof.
  assert (D0 : Cabs (C1 - C1)%C = 0%R) by (unfold Cabs; replace (C1 - C1)%C with C0 by cring; rewrite Cnorm2_0; apply sqrt_0).
  assert (D1 : Cabs (C1 - m1)%C = 2%R).
  { unfold Cabs. replace (Cnorm2 (C1 - m1)%C) with (2 * 2)%R by (unfold Cnorm2, m1, C1, Csub; cbn [fst snd]; ring). apply sqrt_square. lra. }
  assert (D2 : Cabs (m1 - C1)%C = 2%R).
  { unfold Cabs. replace (Cnorm2 (m1 - C1)%C) with (2 * 2)%R by (unfold Cnorm2, m1, C1, Csub; cbn [fst snd]; ring). apply sqrt_square. lra. }
  unfold cal_gmi. change (signal_sync_and_adjust [[C1]] [[C1]] true) with (@Ok (list (list C) * list (list C)) ([[C1]], [[C1]])). cbn [bind fst snd].
  unfold gmi_snr. cbn [length Nat.eqb map bind].
  assert (Hd : demodulate bpsk [[C1]] = Ok [[false]]).
  { unfold demodulate, signal_make_decision, make_decision, det_symbol_argmin. cbn [mapM bind map bpsk coded_symbols encoding argmin argmin_from]. rewrite D0, D1.
    destruct (Rlt_dec 2 0); [lra|]. reflexivity. }
  rewrite Hd. cbn [bind seq mapM]. unfold getn. cbn [nth_error bind].
  unfold gmi_mode, soft_l_value_demapper. cbn [bpsk bitmap_mtx mapM seq]. unfold getn. cbn [nth_error bind].
  change (reshape 1 [false]) with (Ok [[false]]). cbn [bind]. unfold column. cbn [mapM]. unfold getn. cbn [nth_error bind length Nat.eqb].
  unfold gmi_bit, cal_l_value, exp_dists, Rmean. cbn [map Rsum fst snd combine length]. rewrite D0, D2.
  do 3 f_equal. unfold g_of. f_equal. set (s := pow10 (x / 10)). unfold Rsum. cbn [fold_right INR].
  rewrite !Rplus_0_r, !ln_exp.
  replace (1 * (- s * 2 ^ 2 - - s * 0 ^ 2))%R with (- (4 * s))%R by ring. field.
Qed.
Lemma g_of_inj a b : (a < b)%R -> (g_of a < g_of b)%R.
Proof.
  intros H. unfold g_of, log2. assert (H2 : (0 < ln 2)%R) by (rewrite <- ln_1; apply ln_increasing; lra).
  assert (He : (exp (- (4 * b)) < exp (- (4 * a)))%R) by (apply exp_increasing; lra).
  assert (Hl : (ln (1 + exp (- (4 * b))) < ln (1 + exp (- (4 * a))))%R) by (apply ln_increasing; [pose proof (exp_pos (- (4 * b))); lra|lra]).
  apply Rplus_lt_compat_l, Ropp_lt_contravar. unfold Rdiv. apply Rmult_lt_compat_r; [apply Rinv_0_lt_compat; exact H2|exact Hl].
Qed.
Lemma bpsk_snr : pilot_est_snr bpsk [[C1; C1; m1; m1]] [[(2, 0)%R; C0; (-2, 0)%R; C0]] = Ok [Some 1%R].
Proof.
  unfold pilot_est_snr, est_snr.
  set (rx := [(2, 0)%R; C0; (-2, 0)%R; C0]). set (tx := [C1; C1; m1; m1]).
  change (signal_sync_and_adjust [tx] [rx] true) with (@Ok (list (list C) * list (list C)) ([tx], [rx])). cbn [bind fst snd length seq mapM]. unfold getn. cbn [nth_error bind map].
  apply (f_equal Ok). apply (f_equal2 cons); [|reflexivity].
  assert (S1 : Csel rx tx C1 = [(2, 0)%R; C0]).
  { unfold Csel, rx, tx. cbn [combine filter map fst snd]. destruct (Ceq_dec C1 C1) as [_|n]; [|congruence].
    destruct (Ceq_dec m1 C1) as [e|_]; [unfold m1, C1 in e; injection e; intros; lra|]. reflexivity. }
  assert (S2 : Csel rx tx m1 = [(-2, 0)%R; C0]).
  { unfold Csel, rx, tx. cbn [combine filter map fst snd]. destruct (Ceq_dec m1 m1) as [_|n]; [|congruence].
    destruct (Ceq_dec C1 m1) as [e|_]; [unfold m1, C1 in e; injection e; intros; lra|]. reflexivity. }
  unfold estimate_snr. cbn [bpsk coded_symbols snr_loop]. rewrite S1, S2.
  unfold snr_value.
  assert (Q : forall e, e = 1%R -> sqrt e = 1%R) by (intros e ->; apply sqrt_1).
  repeat match goal with |- context [sqrt ?e] =>
    rewrite (Q e) by (unfold Cmean, Cscal, Csum, Rsum, Cnorm2, Csub, Cadd, C0; cbn; field) end.
  assert (M1 : Cnorm2 (Cmean [(2, 0)%R; C0]) = 1%R) by (unfold Cmean, Cscal, Csum, Cnorm2, Cadd, C0; cbn; field).
  assert (M2 : Cnorm2 (Cmean [(-2, 0)%R; C0]) = 1%R) by (unfold Cmean, Cscal, Csum, Cnorm2, Cadd, C0; cbn; field).
  rewrite M1, M2. unfold rx. cbn [length]. replace (INR 2) with 2%R by (cbn; ring). replace (INR 4) with 4%R by (cbn; ring).
  destruct (Req_EM_T _ 0) as [e|_]; [exfalso; lra|]. apply (f_equal Some). field.
Qed.
Lemma pow10_0 : pow10 (0 / 10) = 1%R.
Proof. unfold pow10. replace (0 / 10 * ln 10)%R with 0%R by field. apply exp_0. Qed.
Lemma pow10_pos1 : (1 < pow10 (1 / 10))%R.
Proof.
  unfold pow10. rewrite <- exp_0 at 1. apply exp_increasing. assert (0 < ln 10)%R by (rewrite <- ln_1; apply ln_increasing; lra). apply Rmult_lt_0_compat; lra.
Qed.
