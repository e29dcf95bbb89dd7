From Coq Require Import String List ZArith Arith Bool Reals Lia Lra ZifyBool ZifyNat Permutation.
From Verif Require Import Common.Py Common.ListX Common.Cplx Common.SumX Model.Decision Model.Sync Model.Pilots Model.Equaliser Model.Phase
  Model.PilotRx Spec.Seq Spec.Equal Spec.PilotSpec Proofs.PilotRxP Proofs.PilotRxQ Proofs.PilotRxR.
Import ListNotations.
Open Scope list_scope.

(** ** three modes *)
Definition cm1 : C := (-1, 0)%R.
Definition cmi : C := (0, -1)%R.
Definition id3 : list (list (list C)) := [[[C1]; [C0]; [C0]]; [[C0]; [C1]; [C0]]; [[C0]; [C0]; [C1]]].
Definition train3 (x : list (list C)) : result (list (list (list C)) * list R) := Ok (id3, [0; 0; 0]%R).
Definition fo3 (x : list (list C)) : result (list R) := Ok [0; 0; 0]%R.
Definition ref3 : list (list C) := [[C1; C1]; [C1; Ci]; [C1; cm1]].
Definition q0 := [C1; cmi; C1; cmi].
Definition q1 := [C1; cmi; Ci; C1].
Definition q2 := [C1; cmi; cmi; cm1].
Definition rx3 : list (list C) := [q0 ++ [C1; C1]; q1 ++ [C1; C1]; q2 ++ [C1; C1]].
Definition sy3 (l : nat) := nth l [q0; q1; q2] [].
Definition pil3 (l : nat) := nth l [1; 2; 0] 0.

Lemma filt3 : core_apply_filter (ArrC [q0; q1; q2]) 4 1 (TapsC id3) 1 None = Ok [q0; q1; q2].
Proof.
  cbv -[Cadd Cmul C0 C1 Ci cm1 cmi q0 q1 q2 nth_error]. cbv [q0 q1 q2 nth_error].
  assert (E : forall a b c : C, (C0 + a * C1 + b * C0 + c * C0)%C = a) by (intros; cring).
  repeat match goal with |- Ok ?x = Ok ?y => apply (f_equal Ok) | |- ?x :: ?y = ?x' :: ?y' => apply (f_equal2 cons) | |- [] = [] => reflexivity end; cring.
Qed.
Lemma foc3 : comp_freq_offset [q0; q1; q2] [0; 0; 0]%R 1 = Ok [q0; q1; q2].
Proof.
  unfold comp_freq_offset. cbn [length seq mapM getn nth_error bind].
  assert (E : forall (z : C) k, (z * Cexpi (- (2 * PI * k * 0 / 1)))%C = z).
  { intros z k. replace (- (2 * PI * k * 0 / 1))%R with 0%R by field. unfold Cexpi. rewrite cos_0, sin_0. cring. }
  unfold getn. cbn [nth_error bind q0 q1 q2 length seq combine map fst snd]. unfold q0, q1, q2. rewrite !E. reflexivity.
Qed.
Lemma no_pair s r0 r1 : (forall k, k + 1 < length s -> forall u, nth k s C0 = (u * r0)%C -> nth (k + 1) s C0 = (u * r1)%C -> False) ->
  absent s [r0; r1].
Proof.
  intros H d u Hu [[H1 H2] Ho]. cbn [length] in *. pose proof (Ho 0 ltac:(lia)) as A0. pose proof (Ho 1 ltac:(lia)) as A1.
  change (ext [r0; r1] (Z.of_nat 0)) with r0 in A0. change (ext [r0; r1] (Z.of_nat 1)) with r1 in A1.
  unfold ext in A0, A1. replace (0 <=? d + Z.of_nat 0)%Z with true in A0 by lia. replace (0 <=? d + Z.of_nat 1)%Z with true in A1 by lia.
  apply (H (Z.to_nat d) ltac:(lia) u).
  - rewrite <- A0. f_equal. lia.
  - rewrite <- A1. f_equal. lia.
Qed.
Lemma one_pair s r0 r1 p q : p + 1 < length s -> nth p s C0 = (quarter q * r0)%C -> nth (p + 1) s C0 = (quarter q * r1)%C ->
  (forall k, k + 1 < length s -> k <> p -> forall u, nth k s C0 = (u * r0)%C -> nth (k + 1) s C0 = (u * r1)%C -> False) ->
  found_once s [r0; r1] (Z.of_nat p) q.
Proof.
  intros Hp E0 E1 H. split.
  - split; [cbn [length]; lia|]. intros k Hk. cbn [length] in Hk.
    unfold ext at 1. replace (0 <=? _)%Z with true by lia. rewrite <- Nat2Z.inj_add, Nat2Z.id. destruct k as [|[|k]]; [rewrite Nat.add_0_r; exact E0|exact E1|lia].
  - intros d u Hu [[H1 H2] Ho]. cbn [length] in *. pose proof (Ho 0 ltac:(lia)) as A0. pose proof (Ho 1 ltac:(lia)) as A1.
    change (ext [r0; r1] (Z.of_nat 0)) with r0 in A0. change (ext [r0; r1] (Z.of_nat 1)) with r1 in A1.
    unfold ext in A0, A1. replace (0 <=? d + Z.of_nat 0)%Z with true in A0 by lia. replace (0 <=? d + Z.of_nat 1)%Z with true in A1 by lia.
    destruct (Z.eq_dec d (Z.of_nat p)) as [->|Hne]; [reflexivity|]. exfalso.
    apply (H (Z.to_nat d) ltac:(lia) ltac:(lia) u).
    + rewrite <- A0. f_equal. lia.
    + rewrite <- A1. f_equal. lia.
Qed.
Ltac fin := intros [ur ui] A B; cbn [nth q0 q1 q2 Nat.add] in A, B; unfold C1, C0, Ci, cm1, cmi, Cmul in A, B; cbn [fst snd] in A, B; injection A; injection B; intros; lra.
Ltac cases k Hk := intros k Hk; cbn [length q0 q1 q2] in Hk; destruct k as [|[|[|k]]]; [| | |exfalso; cbn in Hk; lia].
Ltac pairs := let k := fresh in let Hk := fresh in cases k Hk; fin.
Ltac pairs1 := let k := fresh in let Hk := fresh in let Hn := fresh in cases k Hk; intros Hn; [fin|exfalso; lia|fin].
Lemma mode3 l : l < 3 -> mode_has fo3 rx3 ref3 1 1 pil3 (fun _ => 1%Z) (fun l => nth l [3; 3; 3] 0) (fun _ => 2) sy3 3 [(id3, [0; 0; 0]%R)] l.
Proof.
  intros Hl. assert (Hsub : sub_vars 3 [(id3, [0; 0; 0]%R)] l = Ok [100; 100; 0]%R).
  { destruct l as [|[|[|]]]; [| | |lia]; reflexivity. }
  split. { exists [100; 100; 0]%R. split; [exact Hsub|]. unfold argmin. cbn [argmin_from].
           destruct (Rlt_dec 100 100); [lra|]. destruct (Rlt_dec 0 100); [reflexivity|lra]. }
  split.
  { unfold search_symbols. change (wslice rx3 _ _) with [q0; q1; q2]. change (window_taps rx3 1 [(id3, [0; 0; 0]%R)] 2) with (@Ok (list (list (list C))) id3).
    cbv zeta. cbn [bind]. change (row_len [q0; q1; q2]) with 4. rewrite filt3. cbn [bind]. unfold fo3. cbn [bind]. rewrite foc3. cbn [bind].
    destruct l as [|[|[|]]]; [reflexivity|reflexivity|reflexivity|lia]. }
  split. { destruct l as [|[|[|]]]; [discriminate|discriminate|discriminate|lia]. }
  split. { destruct l as [|[|[|]]]; [| | |lia]; unfold sy3, unit_modulus; cbn [nth];
           repeat (apply Forall_cons; [unfold Cnorm2, C1, Ci, cm1, cmi; cbn [fst snd]; ring|]); apply Forall_nil. }
  split. { destruct l as [|[|[|]]]; [cbn; lia|cbn; lia|cbn; lia|lia]. }
  split. { destruct l as [|[|[|]]]; [cbn; lia|cbn; lia|cbn; lia|lia]. }
  split.
  - destruct l as [|[|[|]]]; [| | |lia]; cbn [pil3 nth ref3 sy3]; apply (one_pair _ _ _ 1 3);
      try (cbn; lia); try (cbn [nth q0 q1 q2 Nat.add quarter]; unfold C1, Ci, cm1, cmi; cring); pairs1.
  - intros p Hp Hne. destruct l as [|[|[|]]]; [| | |lia]; (destruct p as [|[|[|]]]; [| | |cbn in Hp; lia]); cbn [pil3 nth] in Hne; try congruence;
      cbn [pil3 nth ref3 sy3]; apply no_pair; pairs.
Qed.
Lemma sync3 : frame_sync train3 fo3 rx3 ref3 1 2 1 (Some "cma"%string) = Ok ([1; 1; 1]%Z, [1; 2; 0], false).
Proof.
  rewrite (frame_sync_finds train3 fo3 rx3 ref3 1 2 1 _ 6 2 pil3 (fun _ => 1%Z) (fun l => nth l [3; 3; 3] 0) (fun _ => 2) sy3 [(id3, [0; 0; 0]%R)]); try reflexivity; try lia; try discriminate.
  1: { repeat constructor. }
  all: try (cbn; lia).
  1: { repeat (apply Forall_cons; [split; [reflexivity|]; repeat (apply Forall_cons; [unfold Cnorm2, C1, Ci, cm1; cbn [fst snd]; ring|]); apply Forall_nil|]). apply Forall_nil. }
  1: { intros l Hl. apply mode3. exact Hl. }
  cbn. repeat constructor; cbn; intuition lia.
Qed.
Lemma sync3_rows : sync2frame train3 fo3 rx3 ref3 1 2 1 None = Ok ([nth 1 rx3 []; nth 2 rx3 []; nth 0 rx3 []], [1; 1; 1]%Z, false).
Proof. unfold sync2frame. rewrite sync3. reflexivity. Qed.
Lemma rx3_ne : nth 0 rx3 [] <> nth 2 rx3 [].
Proof. cbn. unfold q0, q2. intros H. injection H. unfold C1, cmi. intros. lra. Qed.

Lemma fancy_get_in {A} (l : list A) idx d : Forall (fun i => i < length l) idx -> fancy_get idx l = Ok (map (fun i => nth i l d) idx).
Proof.
  intros H. unfold fancy_get. induction H as [|i idx Hi H IH]; [reflexivity|]. cbn [mapM map]. unfold getn at 1.
  rewrite (nth_error_nth' l d) by exact Hi. cbn [bind]. rewrite IH. reflexivity.
Qed.
Lemma sync2frame_rows train find_fo rx ref os fl nt L meth rows sh ok : rect rx L -> rect ref (seq_len ref) -> 1 <= nt -> 1 <= os ->
  rx <> [] -> seq_len ref <= fl -> sync2frame train find_fo rx ref os fl nt meth = Ok (rows, sh, ok) ->
  exists shifts order, frame_sync train find_fo rx ref os fl nt (eff_method meth) = Ok (shifts, order, ok) /\
    Permutation order (seq 0 (length rx)) /\ rows = map (fun l => nth l rx []) order /\
    sh = map (fun l => let s := nth l shifts 0%Z in if (s <? 0)%Z then (s + Z.of_nat (fl * os))%Z else s) order /\
    length sh = length rx /\ Forall (fun s => (0 <= s /\ s + Z.of_nat (seq_len ref * os) <= Z.of_nat L)%Z) sh.
Proof.
  intros Hrx Href Hnt Hos Hne Hfl H.
  destruct (sync2frame_ok train find_fo rx ref os fl nt L meth rows sh ok Hrx Href Hnt Hos Hne Hfl H) as (shifts & order & E & HP & Hr & Hl & HF).
  exists shifts, order. repeat (split; [assumption|]). split; [|auto].
  destruct (frame_sync_ok train find_fo rx ref os fl nt L (eff_method meth) shifts order ok Hrx Href Hnt Hos Hne E) as (_ & Hls & _).
  unfold sync2frame in H. fold (eff_method meth) in H. rewrite E in H. cbn [bind] in H.
  assert (Hin : Forall (fun i => i < length rx) order).
  { apply Forall_forall. intros i Hi. apply (Permutation_in _ HP) in Hi. apply in_seq in Hi. lia. }
  rewrite (fancy_get_in rx order []) in H by exact Hin. cbn [bind] in H.
  rewrite (fancy_get_in _ order 0%Z) in H by (rewrite map_length, Hls; exact Hin). cbn [bind] in H. injection H as _ <-.
  apply map_ext_in. intros i Hi. eapply Forall_forall in Hin; [|exact Hi]. cbv zeta.
  set (f := fun s => if (s <? 0)%Z then (s + Z.of_nat (fl * os))%Z else s).
  change (nth i (map f shifts) 0%Z = f (nth i shifts 0%Z)).
  rewrite (nth_indep _ 0%Z (f 0%Z)) by (rewrite map_length; lia). apply map_nth.
Qed.

(** ** frames side by side *)
Lemma frames_app rows p L os fl shifts sy wxy nt f1 f2 : 0 < os -> 0 < fl -> 0 < p -> 0 < nt ->
  shape rows p L -> taps_ok wxy p nt -> length shifts = p -> f1 <> [] -> f2 <> [] ->
  (forall m f, m < p -> In f (f1 ++ f2) -> frame_in L nt os fl (frame_start shifts nt sy os fl m) f) ->
  exists o1 o2, apply_to_pilotsignal rows os fl shifts sy wxy nt f1 = Ok o1 /\ apply_to_pilotsignal rows os fl shifts sy wxy nt f2 = Ok o2 /\
    apply_to_pilotsignal rows os fl shifts sy wxy nt (f1 ++ f2) = Ok (map (fun m => nth m o1 [] ++ nth m o2 []) (seq 0 p)).
Proof.
  intros H1 H2 H3 H4 H5 H6 H7 N1 N2 Hin.
  destruct (apply_pilot_ok rows p L os fl shifts sy wxy nt f1 H1 H2 H3 H4 H5 H6 H7 N1) as (o1 & E1 & [L1 R1] & V1).
  { intros m f Hm Hf. apply Hin; [exact Hm|]. apply in_or_app. auto. }
  destruct (apply_pilot_ok rows p L os fl shifts sy wxy nt f2 H1 H2 H3 H4 H5 H6 H7 N2) as (o2 & E2 & [L2 R2] & V2).
  { intros m f Hm Hf. apply Hin; [exact Hm|]. apply in_or_app. auto. }
  destruct (apply_pilot_ok rows p L os fl shifts sy wxy nt (f1 ++ f2) H1 H2 H3 H4 H5 H6 H7) as (o & E & [L0 R0] & V).
  { destruct f1; [congruence|discriminate]. }
  { exact Hin. }
  exists o1, o2. split; [exact E1|]. split; [exact E2|]. rewrite E. apply (f_equal Ok).
  assert (LR : forall (X : list (list C)) n m, Forall (fun r => length r = n) X -> m < length X -> length (nth m X []) = n).
  { intros X n m HX Hm. eapply Forall_forall in HX; [exact HX|]. apply nth_In. exact Hm. }
  apply (nth_ext _ _ [] []); [rewrite map_length, seq_length; exact L0|]. intros m Hm.
  set (g := fun m => nth m o1 [] ++ nth m o2 []).
  rewrite (nth_indep (map g _) [] (g 0)) by (rewrite map_length, seq_length; lia). rewrite map_nth, seq_nth by lia. cbn [Nat.add]. unfold g.
  assert (Hmp : m < p) by lia.
  pose proof (LR o _ m R0 Hm) as La. pose proof (LR o1 _ m R1 ltac:(lia)) as Lb. pose proof (LR o2 _ m R2 ltac:(lia)) as Lc.
  rewrite app_length in La. apply (nth_ext _ _ C0 C0); [rewrite app_length; nia|]. intros i Hi. rewrite La in Hi.
  assert (Hj : i = i / fl * fl + i mod fl) by (rewrite Nat.mul_comm; apply Nat.div_mod; lia).
  pose proof (Nat.mod_upper_bound i fl ltac:(lia)) as Hk. set (j := i / fl) in *. set (k := i mod fl) in *. clearbody j k.
  assert (Hjl : j < length f1 + length f2) by nia.
  assert (Ec : nth i (nth m o []) C0 = cell C0 o m (j * fl + k)) by (unfold cell; f_equal; exact Hj).
  rewrite Ec, V by (try rewrite app_length; lia).
  destruct (Nat.lt_ge_cases j (length f1)) as [Hjf|Hjf].
  - rewrite app_nth1 by nia. rewrite (app_nth1 (nth m o1 [])) by nia.
    replace i with (j * fl + k) by lia. symmetry. apply (V1 m j k); assumption.
  - rewrite app_nth2 by nia. rewrite (app_nth2 (nth m o1 [])) by nia.
    replace (i - length (nth m o1 [])) with ((j - length f1) * fl + k) by nia. symmetry. apply (V2 m (j - length f1) k); lia.
Qed.

(** ** the pilot sequences arranged in order *)
Lemma sync_arranges train find_fo rx ref os fl nt L P pil pos qrt idx sy res :
  rect rx L -> rx <> [] -> length rx <= 2 -> 1 <= P -> 1 <= os -> P * os <> 1 -> (fl + 2 * P) * os <= L -> seq_len ref = P ->
  length rx <= length ref -> Forall (fun r => length r = P /\ unit_modulus r) ref ->
  let ns := fl * os / (P * os / 2) + 1 in
  search train rx ref os ns = Ok res ->
  (forall l, l < length rx -> mode_has find_fo rx ref os nt pil pos qrt idx sy ns res l) ->
  NoDup (map pil (seq 0 (length rx))) ->
  exists rows sh, sync2frame train find_fo rx ref os fl nt None = Ok (rows, sh, 120 <=? P) /\
    forall l, l < length rx -> nth_error rows (pil l) = nth_error rx l /\
      exists s, nth_error sh (pil l) = Some s /\
        let s0 := (Z.of_nat (idx l * (P * os / 2)) + Z.of_nat os * pos l - Z.of_nat (P * os))%Z in
        s = if (s0 <? 0)%Z then (s0 + Z.of_nat (fl * os))%Z else s0.
Proof.
  intros Hrx Hne H2 HP Hos Hp1 HL Hsl Hrl Hu ns Hs Hmodes Hnd.
  pose proof (frame_sync_finds train find_fo rx ref os fl nt (Some "cma"%string) L P pil pos qrt idx sy res Hrx Hne HP Hos Hp1 HL Hsl Hrl Hu eq_refl Hs Hmodes Hnd) as E.
  set (n := length rx) in *. set (order := map pil (seq 0 n)) in *.
  assert (Hin : Forall (fun i => i < n) order).
  { apply Forall_forall. intros i Hi. apply in_map_iff in Hi as (l & <- & Hl). apply in_seq in Hl. apply (Hmodes l ltac:(lia)). }
  assert (HPm : Permutation order (seq 0 n)).
  { apply NoDup_Permutation_bis; [exact Hnd|unfold order; rewrite map_length; lia|]. intros i Hi. apply in_seq. eapply Forall_forall in Hin; [|exact Hi]. lia. }
  set (f := fun l => (Z.of_nat (idx l * (P * os / 2)) + Z.of_nat os * pos l - Z.of_nat (P * os))%Z) in *.
  set (w := fun s0 => if (s0 <? 0)%Z then (s0 + Z.of_nat (fl * os))%Z else s0).
  unfold sync2frame. rewrite E. cbn [bind]. rewrite (fancy_get_in rx order []) by exact Hin. cbn [bind].
  rewrite (fancy_get_in _ order 0%Z) by (rewrite !map_length, seq_length; exact Hin). cbn [bind].
  eexists _, _. split; [reflexivity|]. intros l Hl.
  assert (Ho : nth_error order l = Some (pil l)) by (unfold order; rewrite nth_error_map, nth_error_seq by lia; reflexivity).
  split; [apply align_two; assumption|].
  assert (HA : forall l p, nth_error order l = Some p -> nth_error (map (fun k => nth k (map w (map f (seq 0 n))) 0%Z) order) p = nth_error (map w (map f (seq 0 n))) l).
  { clear - H2 HPm Hin. clearbody order f w. intros l p Hp.
    assert (Hlo : length order = n) by (rewrite (Permutation_length HPm); apply seq_length).
    set (v := map w (map f (seq 0 n))). assert (Hv : length v = n) by (unfold v; rewrite !map_length; apply seq_length). clearbody v n.
    assert (Hord : forall q, In q order -> q < n) by (intros q Hq; eapply Forall_forall in Hin; [exact Hin|exact Hq]).
    assert (Hnd : NoDup order) by (apply (Permutation_NoDup (Permutation_sym HPm)); apply seq_NoDup).
    destruct order as [|a [|b [|c order]]]; cbn in Hlo.
    - destruct l; discriminate.
    - destruct l as [|l]; [|destruct l; discriminate]. injection Hp as ->. destruct v as [|x [|]]; cbn in Hv; try lia.
      assert (p < 1) by (subst n; apply Hord; left; reflexivity). assert (p = 0) by lia. subst. reflexivity.
    - destruct v as [|x [|y [|]]]; cbn in Hv; try lia. assert (Ha : a < 2) by (rewrite Hlo; apply Hord; left; reflexivity).
      assert (Hb : b < 2) by (rewrite Hlo; apply Hord; right; left; reflexivity).
      assert (Hab : a <> b) by (inversion Hnd as [|? ? Hni _]; subst; intros ->; apply Hni; left; reflexivity).
      destruct a as [|[|]], b as [|[|]]; try lia; destruct l as [|[|l]]; try (destruct l; discriminate); injection Hp as <-; reflexivity.
    - lia. }
  exists (w (f l)). split; [|reflexivity]. etransitivity; [exact (HA l (pil l) Ho)|]. rewrite !nth_error_map, nth_error_seq by lia. reflexivity.
Qed.
