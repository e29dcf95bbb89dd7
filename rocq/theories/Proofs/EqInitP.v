(** Proofs about Model/EqInit.v. *)
From Coq Require Import List ZArith Arith Bool Reals Lia Lra Permutation.
From Verif Require Import Common.Py Common.Cplx Model.Constellation Model.Equaliser Model.NumbaEq Model.EqInit Spec.Geometry Spec.EqInitS
  Proofs.ConstP Proofs.QamP Proofs.EqualS Proofs.EqualU Proofs.NumbaQ.
Import ListNotations.
Local Open Scope R_scope.

(** ** orthogonalizetaps *)
Lemma energy_rows a : tap_energy a = Rsum (map (fun r => Rsum (map Cnorm2 r)) a).
Proof.
  unfold tap_energy. induction a as [|r a IH]; [reflexivity|]. cbn [concat map]. rewrite map_app, Rsum_app, IH. reflexivity.
Qed.
Lemma combine_snoc {A B} (a : list A) (b : list B) x y : length a = length b -> combine (a ++ [x]) (b ++ [y]) = combine a b ++ [(x, y)].
Proof.
  revert b; induction a as [|u a IH]; intros [|v b] H; cbn in *; try lia; [reflexivity|]. f_equal. apply IH. lia.
Qed.
Lemma combine_rev {A B} (a : list A) (b : list B) : length a = length b -> combine (rev a) (rev b) = rev (combine a b).
Proof.
  revert b; induction a as [|u a IH]; intros [|v b] H; cbn in *; try lia; [reflexivity|].
  rewrite combine_snoc by (rewrite !rev_length; lia). now rewrite IH by lia.
Qed.
Lemma csum_rev l : Csum (rev l) = Csum l.
Proof.
  induction l as [|a l IH]; [reflexivity|]. cbn [rev]. rewrite Csum_app, IH, !Csum_cons. unfold Csum at 2. cbn [fold_right]. cring.
Qed.
Definition dot (a b : list C) : C := Csum (map (fun p => (fst p * snd p)%C) (combine a b)).
Lemma inner_conj a b : inner a (map Cconj b) = dot a b.
Proof.
  unfold inner, dot. revert b; induction a as [|u a IH]; intros [|v b]; try reflexivity. cbn [map combine fst snd].
  rewrite !Csum_cons, IH, Cconj_invol. reflexivity.
Qed.
Lemma dot_comm a b : dot a b = dot b a.
Proof.
  unfold dot. revert b; induction a as [|u a IH]; intros [|v b]; try reflexivity. cbn [map combine fst snd].
  rewrite !Csum_cons, IH. cring.
Qed.
Lemma dot_rev a b : length a = length b -> dot (rev a) (rev b) = dot a b.
Proof. intros H. unfold dot. rewrite combine_rev by exact H. rewrite map_rev. apply csum_rev. Qed.
Lemma ortho_product a b : length a = length b ->
  inner2 [a; b] (orthogonalizetaps [a; b]) = Cscal 2 (Csum (map (fun p => (fst p * snd p)%C) (combine a (rev b)))).
Proof.
  intros H. change (orthogonalizetaps [a; b]) with [map Cconj (rev b); map Cconj (rev a)].
  change (inner2 _ _) with (inner a (map Cconj (rev b)) + (inner b (map Cconj (rev a)) + C0))%C. rewrite !inner_conj.
  change (Csum (map _ (combine a (rev b)))) with (dot a (rev b)).
  replace (dot b (rev a)) with (dot a (rev b)); [generalize (dot a (rev b)); intros z; cring|].
  rewrite (dot_comm b). rewrite <- (dot_rev a (rev b)) by (rewrite rev_length; exact H). now rewrite rev_involutive.
Qed.
Lemma dot_zero n b : dot (repeat C0 n) b = C0.
Proof.
  revert b; induction n as [|n IH]; intros [|v b]; try reflexivity. unfold dot. cbn [repeat combine map fst snd]. rewrite Csum_cons.
  change (Csum _) with (dot (repeat C0 n) b). rewrite IH. cring.
Qed.
Lemma ortho_single a : inner2 [a; repeat C0 (length a)] (orthogonalizetaps [a; repeat C0 (length a)]) = C0 /\
  inner2 [repeat C0 (length a); a] (orthogonalizetaps [repeat C0 (length a); a]) = C0.
Proof.
  split; rewrite ortho_product by (now rewrite repeat_length).
  - change (Csum _) with (dot a (rev (repeat C0 (length a)))).
    assert (E : rev (repeat C0 (length a)) = repeat C0 (length a)).
    { generalize (length a). intros n. induction n as [|n IH]; [reflexivity|]. cbn [repeat rev]. rewrite IH.
      change [C0] with (repeat C0 1). rewrite <- repeat_app, Nat.add_comm. reflexivity. }
    rewrite E, dot_comm, dot_zero. cring.
  - change (Csum _) with (dot (repeat C0 (length a)) (rev a)). rewrite dot_zero. cring.
Qed.
Lemma response_cons a r w : response (a :: r) w = (a + Cexpi (- w) * response r w)%C.
Proof.
  unfold response. cbn [length seq map]. rewrite Csum_cons, <- seq_shift, map_map. cbn [nth].
  replace (- (w * INR 0)) with 0 by (cbn [INR]; ring). rewrite Cexpi_0, <- Csum_map_mul.
  rewrite (map_ext (fun x => (nth x r C0 * Cexpi (- (w * INR (S x))))%C) (fun x => (Cexpi (- w) * (nth x r C0 * Cexpi (- (w * INR x))))%C)).
  - cring.
  - intros n. replace (- (w * INR (S n))) with (- w + - (w * INR n)) by (rewrite S_INR; ring). rewrite Cexpi_add. cring.
Qed.
Lemma response_snoc r a w : response (r ++ [a]) w = (response r w + a * Cexpi (- (w * INR (length r))))%C.
Proof.
  induction r as [|b r IH].
  - cbn [app length]. rewrite response_cons. change (response [] w) with C0. replace (- (w * INR 0)) with 0 by (cbn [INR]; ring).
    rewrite Cexpi_0. cring.
  - cbn [app length]. rewrite !response_cons, IH. replace (- (w * INR (S (length r)))) with (- w + - (w * INR (length r))) by (rewrite S_INR; ring).
    rewrite Cexpi_add. cring.
Qed.
Lemma response_back r w : response (map Cconj (rev r)) w = (Cexpi (- (w * (INR (length r) - 1))) * Cconj (response r w))%C.
Proof.
  induction r as [|a r IH].
  - change (response (map Cconj (rev [])) w) with C0. change (response [] w) with C0. cring.
  - cbn [rev]. rewrite map_app. cbn [map]. rewrite response_snoc, IH, map_length, rev_length, response_cons, Cconj_add, Cconj_mul.
    rewrite <- Cexpi_neg, Ropp_involutive. cbn [length].
    replace (- (w * (INR (length r) - 1))) with (- (w * INR (length r)) + w) by ring.
    replace (- (w * (INR (S (length r)) - 1))) with (- (w * INR (length r))) by (rewrite S_INR; ring).
    rewrite Cexpi_add. cring.
Qed.
Lemma ortho_determinant a b w : length a = length b ->
  det_response [a; b] (orthogonalizetaps [a; b]) w =
  Cscal (Cnorm2 (response a w) - Cnorm2 (response b w)) (Cexpi (- (w * (INR (length a) - 1)))).
Proof.
  intros H. change (orthogonalizetaps [a; b]) with [map Cconj (rev b); map Cconj (rev a)]. unfold det_response. cbn [nth].
  rewrite !response_back, <- H. generalize (response a w) (response b w) (Cexpi (- (w * (INR (length a) - 1)))). intros x y e.
  apply C_eq; unfold Csub, Cmul, Cscal, Cconj, Cnorm2; cbn [fst snd]; ring.
Qed.
Lemma ortho_equal_rows r w : det_response [r; r] (orthogonalizetaps [r; r]) w = C0.
Proof. rewrite ortho_determinant by reflexivity. apply C_eq; unfold Cscal, C0; cbn [fst snd]; ring. Qed.
Lemma ortho_fixed r : orthogonalizetaps [r; map Cconj (rev r)] = [r; map Cconj (rev r)].
Proof.
  unfold orthogonalizetaps. cbn [rev app map]. rewrite <- map_rev, rev_involutive, map_map.
  rewrite (map_ext (fun x => Cconj (Cconj x)) (fun x => x)) by (intros; apply Cconj_invol). now rewrite map_id.
Qed.
Lemma tap_energy_pos r z : In z r -> z <> C0 -> 0 < tap_energy [r; map Cconj (rev r)].
Proof.
  intros Hin Hz. unfold tap_energy. apply Rsum_sq_pos.
  - intros s _. apply Cnorm2_nonneg.
  - exists z. split; [cbn [concat]; apply in_or_app; now left|]. destruct (Cnorm2_nonneg z) as [L|L]; [exact L|].
    exfalso. apply Hz, Cnorm2_zero. symmetry. exact L.
Qed.
Lemma inner2_self x : inner2 x x = RtoC (tap_energy x).
Proof.
  rewrite energy_rows. unfold inner2. induction x as [|r x IH]; [reflexivity|]. cbn [combine map fst snd]. rewrite Csum_cons, Rsum_cons, IH.
  assert (E : inner r r = RtoC (Rsum (map Cnorm2 r))).
  { unfold inner. induction r as [|a r IHr]; [reflexivity|]. cbn [combine map fst snd]. rewrite Csum_cons, Rsum_cons, IHr, Cmul_conj.
    apply C_eq; unfold Cadd, RtoC; cbn [fst snd]; ring. }
  rewrite E. apply C_eq; unfold Cadd, RtoC; cbn [fst snd]; ring.
Qed.
Lemma ortho_not_orthogonal r z : In z r -> z <> C0 -> let wx := [r; map Cconj (rev r)] in
  orthogonalizetaps wx = wx /\ inner2 wx (orthogonalizetaps wx) <> C0.
Proof.
  intros Hin Hz wx. split; [apply ortho_fixed|]. unfold wx. rewrite ortho_fixed, inner2_self. intros E.
  assert (W : fst (RtoC (tap_energy [r; map Cconj (rev r)])) = fst C0) by congruence. cbn [fst RtoC C0] in W.
  pose proof (tap_energy_pos r z Hin Hz). lra.
Qed.

Lemma ortho_involution wx : orthogonalizetaps (orthogonalizetaps wx) = wx.
Proof.
  unfold orthogonalizetaps. rewrite <- map_rev, rev_involutive, map_map. rewrite <- (map_id wx) at 2. apply map_ext. intros r.
  rewrite <- map_rev, rev_involutive, map_map. rewrite <- (map_id r) at 2. apply map_ext. intros z. apply Cconj_invol.
Qed.
Lemma ortho_energy wx : tap_energy (orthogonalizetaps wx) = tap_energy wx.
Proof.
  rewrite !energy_rows. unfold orthogonalizetaps. rewrite map_map.
  rewrite (map_ext (fun r => Rsum (map Cnorm2 (map Cconj (rev r)))) (fun r => Rsum (map Cnorm2 r))).
  - apply Rsum_perm, Permutation_map, Permutation_sym, Permutation_rev.
  - intros r. rewrite map_map. rewrite (map_ext (fun x => Cnorm2 (Cconj x)) Cnorm2) by (intros; apply Cnorm2_conj).
    apply Rsum_perm, Permutation_map, Permutation_sym, Permutation_rev.
Qed.

(** ** _lms_init *)
Lemma lms_init_never E os wxy n t : exists e, lms_init E os wxy n t = Err e /\ (wxy = None -> e = NameError) /\
  (forall w0 w, wxy = Some (w0 :: w) -> t <> None -> e = NameError).
Proof.
  unfold lms_init. destruct wxy as [w|]; [|eexists; split; [reflexivity|split; [reflexivity|discriminate]]].
  unfold getn. destruct w as [|w0 w].
  - eexists. split; [reflexivity|]. split; [discriminate|]. intros; discriminate.
  - cbn [nth_error bind]. destruct t as [t|].
    + eexists. split; [reflexivity|]. split; [discriminate|reflexivity].
    + destruct ((os =? 0)%nat || (length (hd [] w0) =? 0)%nat); eexists; (split; [reflexivity|]); split; try discriminate; intros; congruence.
Qed.

(** ** _cal_Rsca *)
Lemma sign_abs x : np_sign x * x = Rabs x.
Proof.
  unfold np_sign. destruct (Rlt_dec 0 x) as [H|H]; [rewrite Rabs_right by lra; ring|].
  destruct (Rlt_dec x 0) as [K|K]; [rewrite Rabs_left by lra; ring|]. assert (E : x = 0) by lra. rewrite E, Rabs_R0. ring.
Qed.
Lemma two_max a b : Rabs (a + b) + Rabs (a - b) = 2 * Rmax (Rabs a) (Rabs b).
Proof.
  unfold Rmax. destruct (Rle_dec (Rabs a) (Rabs b)) as [H|H]; unfold Rabs in *;
    repeat match goal with |- context [Rcase_abs ?x] => destruct (Rcase_abs x) | H : context [Rcase_abs ?x] |- _ => destruct (Rcase_abs x) end; lra.
Qed.
Lemma Rdash_re s : fst (cal_Rdash s) = 4 * square_norm s ^ 2.
Proof.
  unfold cal_Rdash, square_norm. pose proof (two_max (Re s) (Im s)) as M. pose proof (sign_abs (Re s + Im s)) as P. pose proof (sign_abs (Re s - Im s)) as N.
  unfold Cmul, Cscal, Cconj. cbn [fst snd]. change (fst s) with (Re s). change (snd s) with (Im s). set (p := np_sign (Re s + Im s)) in *.
  set (m := np_sign (Re s - Im s)) in *. set (mx := Rmax _ _) in *. rewrite M.
  transitivity (2 * mx * (p * (Re s + Im s) + m * (Re s - Im s))); [ring|]. rewrite P, N, M. ring.
Qed.
Lemma Rdash_conj s : cal_Rdash (Cconj s) = Cconj (cal_Rdash s).
Proof.
  unfold cal_Rdash, Re, Im, Cconj. cbn [fst snd]. replace (fst s + - snd s) with (fst s - snd s) by ring. replace (fst s - - snd s) with (fst s + snd s) by ring.
  apply C_eq; unfold Cmul, Cscal; cbn [fst snd]; ring.
Qed.
Definition zconj (z : Z * Z) : Z * Z := (fst z, (- snd z)%Z).
Lemma symbols_conj k z : (1 <= k)%nat -> In z (cal_symbols_qam k) -> In (zconj z) (cal_symbols_qam k).
Proof.
  intros Hk. assert (Od : forall x, Z.Odd x -> Z.Odd (- x)) by (intros x [y Hy]; exists (- y - 1)%Z; lia).
  unfold cal_symbols_qam. destruct (Nat.odd k) eqn:Eo.
  - destruct (le_lt_dec 2 ((k - 1) / 2)) as [H|H].
    + rewrite !cross_qam_in by assumption. unfold cross_point, zconj. cbn [fst snd]. rewrite Z.abs_opp. intuition.
    + rewrite !cross_qam_in_small by assumption. unfold rect_point, zconj. cbn [fst snd]. rewrite Z.abs_opp.
      destruct ((k - 1) / 2)%nat; intuition (try lia; auto).
  - assert (Hp : (0 < k / 2)%nat).
    { destruct k as [|[|k]]; [lia|discriminate|]. apply Nat.div_str_pos. lia. }
    rewrite !square_qam_in by exact Hp. unfold square_point, zconj. cbn [fst snd]. rewrite Z.abs_opp. intuition.
Qed.
Lemma symbols_conj_perm k : (1 <= k)%nat -> Permutation (map zconj (cal_symbols_qam k)) (cal_symbols_qam k).
Proof.
  intros Hk. apply NoDup_Permutation.
  - apply FinFun.Injective_map_NoDup; [|apply cal_symbols_qam_NoDup]. intros [a b] [c d] E. unfold zconj in E. cbn [fst snd] in E.
    assert (a = c /\ (- b = - d)%Z) as [-> F] by (split; congruence). f_equal. lia.
  - apply cal_symbols_qam_NoDup.
  - intros z. rewrite in_map_iff. split.
    + intros [y [<- H]]. now apply symbols_conj.
    + intros H. exists (zconj z). split; [|now apply symbols_conj]. unfold zconj. cbn [fst snd]. rewrite Z.opp_involutive. now destruct z.
Qed.
Lemma alphabet_odd_sum k (g : C -> R) : (1 <= k)%nat -> (forall s, g (Cconj s) = - g s) -> Rsum (map g (qam_alphabet k)) = 0.
Proof.
  intros Hk Hg. assert (E : Rsum (map g (qam_alphabet k)) = - Rsum (map g (qam_alphabet k))); [|lra].
  unfold qam_alphabet. rewrite map_map. set (sc := fun z : Z * Z => Cscal (/ sqrt (cal_scaling_factor_qam k)) (ZtoC z)).
  change (map (fun x => g (Cscal (/ sqrt (cal_scaling_factor_qam k)) (ZtoC x)))) with (map (fun x => g (sc x))).
  transitivity (Rsum (map (fun x => g (sc x)) (map zconj (cal_symbols_qam k)))); [symmetry; apply Rsum_perm, Permutation_map, symbols_conj_perm, Hk|].
  rewrite map_map. rewrite (map_ext (fun x => g (sc (zconj x))) (fun x => -1 * g (sc x))).
  - rewrite Rsum_map_scal. ring.
  - intros z. replace (sc (zconj z)) with (Cconj (sc z)); [rewrite Hg; ring|]. unfold sc, zconj, ZtoC, Cscal, Cconj. cbn [fst snd]. rewrite opp_IZR.
    apply C_eq; cbn [fst snd]; ring.
Qed.
Lemma cmean_real (f : C -> C) l : Rsum (map (fun s => snd (f s)) l) = 0 -> Cmean (map f l) = RtoC (Rmean (map (fun s => fst (f s)) l)).
Proof.
  intros H. unfold Cmean, Rmean. rewrite !map_length. apply C_eq; unfold Cscal, RtoC; cbn [fst snd].
  - rewrite Re_Csum, map_map. unfold Rdiv. ring.
  - rewrite Im_Csum, map_map, H. ring.
Qed.
Lemma square_norm_pos s : Re s <> 0 -> 0 < square_norm s.
Proof. intros H. unfold square_norm. eapply Rlt_le_trans; [|apply Rmax_l]. now apply Rabs_pos_lt. Qed.
Lemma rsca_value k : (1 <= k)%nat -> exists r, cal_Rsca k = Some (RtoC r) /\
  r * Rsum (map (fun s => square_norm s ^ 2) (qam_alphabet k)) = Rsum (map (fun s => square_norm s ^ 4) (qam_alphabet k)).
Proof.
  intros Hk. set (al := qam_alphabet k). assert (Hne : al <> []) by now apply alphabet_nonempty.
  assert (Hin : exists s, In s al /\ 0 < square_norm s ^ 2).
  { destruct al as [|s l] eqn:E; [congruence|]. exists s. split; [now left|]. apply pow_lt, square_norm_pos.
    apply (alphabet_re_neq0 k); [exact Hk|]. fold al. rewrite E. now left. }
  assert (Hd : Rmean (map (fun s => fst (cal_Rdash s)) al) = 4 * Rmean (map (fun s => square_norm s ^ 2) al)).
  { rewrite (map_ext _ (fun s => 4 * square_norm s ^ 2)) by (intros; apply Rdash_re). unfold Rmean. rewrite !map_length, Rsum_map_scal. unfold Rdiv. ring. }
  pose proof (Rsum_sq_pos (fun s => square_norm s ^ 2) al) as Hp. specialize (Hp (fun s _ => pow2_ge_0 _) Hin).
  assert (Hl : 0 < INR (length al)) by (apply lt_0_INR; destruct al; [congruence|cbn; lia]).
  assert (Hm : 0 < Rmean (map (fun s => square_norm s ^ 2) al)).
  { unfold Rmean. rewrite map_length. apply Rdiv_lt_0_compat; assumption. }
  exists (Rmean (map (fun s => square_norm s ^ 4) al) / Rmean (map (fun s => square_norm s ^ 2) al)). split.
  - unfold cal_Rsca. fold al. rewrite (cmean_real cal_Rdash).
    2:{ apply (alphabet_odd_sum k _ Hk). intros s. rewrite Rdash_conj. reflexivity. }
    rewrite (cmean_real (fun s => Cscal ((Rabs (Re s + Im s) + Rabs (Re s - Im s)) ^ 2) (cal_Rdash s))).
    2:{ apply (alphabet_odd_sum k _ Hk). intros s. rewrite Rdash_conj. unfold Re, Im, Cconj, Cscal. cbn [fst snd].
        replace (fst s + - snd s) with (fst s - snd s) by ring. replace (fst s - - snd s) with (fst s + snd s) by ring. ring. }
    rewrite Hd. set (m2 := Rmean (map (fun s => square_norm s ^ 2) al)) in *.
    assert (Hn : Rmean (map (fun s => fst (Cscal ((Rabs (Re s + Im s) + Rabs (Re s - Im s)) ^ 2) (cal_Rdash s))) al) = 16 * Rmean (map (fun s => square_norm s ^ 4) al)).
    { rewrite (map_ext _ (fun s => 16 * square_norm s ^ 4)).
      - unfold Rmean. rewrite !map_length, Rsum_map_scal. unfold Rdiv. ring.
      - intros s. unfold Cscal. cbn [fst]. rewrite Rdash_re, two_max. fold (square_norm s). ring. }
    rewrite Hn. set (m4 := Rmean (map (fun s => square_norm s ^ 4) al)). unfold np_cdiv. destruct (Ceq_dec _ _) as [E|E].
    + exfalso. assert (W : fst (Cscal 4 (RtoC (4 * m2))) = fst C0) by congruence. cbn [fst Cscal RtoC C0] in W. lra.
    + apply (f_equal Some). apply C_eq; unfold Cscal, Cmul, Cconj, Cnorm2, RtoC; cbn [fst snd]; field; lra.
  - apply ratio_target; [exact Hne| |exact Hin]. intros s _. apply pow2_ge_0.
Qed.
Lemma square_norm_four s : In s (qam_alphabet 2) -> square_norm s = / sqrt (cal_scaling_factor_qam 2).
Proof.
  intros H. apply alphabet_in in H as [z [Hz ->]]. assert (Hz' : In z [(-1, -1); (-1, 1); (1, -1); (1, 1)]%Z) by exact Hz.
  pose proof (inv_scale_pos 2 ltac:(lia)) as P. set (c := / sqrt (cal_scaling_factor_qam 2)) in *. unfold square_norm, Re, Im, Cscal, ZtoC.
  assert (A1 : Rabs (c * 1) = c) by (rewrite Rabs_right; lra). assert (A2 : Rabs (c * -1) = c) by (rewrite Rabs_left; lra).
  destruct Hz' as [<-|[<-|[<-|[<-|[]]]]]; cbn [fst snd]; rewrite ?A1, ?A2; apply Rmax_left; lra.
Qed.
Lemma rsca_four : exists r, cal_Rsca 2 = Some (RtoC r) /\ forall s, In s (qam_alphabet 2) -> ErrorFctSCA (sqrt r) s = Ok C0.
Proof.
  destruct (rsca_value 2 ltac:(lia)) as [r [E V]]. exists r. split; [exact E|]. intros s Hs. apply sca_zero. right.
  change (Rmax _ _) with (square_norm s). rewrite (square_norm_four s Hs). pose proof (inv_scale_pos 2 ltac:(lia)) as P.
  set (c := / sqrt (cal_scaling_factor_qam 2)) in *.
  rewrite (map_ext_in (fun s => square_norm s ^ 2) (fun _ => c ^ 2)) in V by (intros a Ha; now rewrite (square_norm_four a Ha)).
  rewrite (map_ext_in (fun s => square_norm s ^ 4) (fun _ => c ^ 4)) in V by (intros a Ha; now rewrite (square_norm_four a Ha)).
  rewrite !Rsum_map_const in V. assert (L : length (qam_alphabet 2) = 4%nat) by reflexivity. rewrite L in V. cbn [INR] in V.
  assert (r = c ^ 2). { assert (0 < c ^ 2) by (apply pow_lt; lra). nra. }
  subst r. rewrite sqrt_pow2 by lra. rewrite Rabs_right; lra.
Qed.
