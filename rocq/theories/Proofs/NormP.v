(** Proofs about Model/Norm.v. *)
From Coq Require Import List ZArith Arith Bool Reals Lia Lra.
From Verif Require Import Common.Py Common.ListX Common.Cplx Model.Constellation Model.Helpers Model.Sync Model.Quality Model.Norm
  Spec.ImpairSpec Proofs.MapP Proofs.QualityR Proofs.ImpairR Proofs.ImpairS.
Import ListNotations.
Local Open Scope R_scope.

(** ** set_mid_and_resale *)
Lemma spans_scal lo hi l a : 0 <= a -> spans lo hi l -> spans (a * lo) (a * hi) (map (fun x => a * x) l).
Proof.
  intros Ha (A & B & D). split; [apply (in_map (fun x => a * x)); exact A|]. split; [apply (in_map (fun x => a * x)); exact B|].
  intros x Hx. apply in_map_iff in Hx. destruct Hx as (y & <- & Hy). specialize (D y Hy). nra.
Qed.
Lemma peak_pos m l z : peak m l -> In z l -> z <> C0 -> 0 < m.
Proof.
  intros [H _] Hz Hn. destruct (H z Hz) as [A B]. pose proof (Rabs_pos (fst z)). pose proof (Rabs_pos (snd z)).
  destruct (Rle_lt_dec m 0) as [L|L]; [|exact L]. exfalso. apply Hn. destruct z as [x y]. cbn [fst snd] in *.
  assert (Rabs x = 0) by lra. assert (Rabs y = 0) by lra.
  destruct (Req_dec x 0) as [->|Nx]; [|exfalso; pose proof (Rabs_pos_lt x Nx); lra].
  destruct (Req_dec y 0) as [->|Ny]; [|exfalso; pose proof (Rabs_pos_lt y Ny); lra]. reflexivity.
Qed.
Lemma mid_rescale row swing : 0 <= swing -> ~ constant row -> exists out a b,
  set_mid_and_resale (D2 [row]) C0 [swing] = Ok [map Some out] /\ peak swing out /\
  spans (- a) a (map fst out) /\ spans (- b) b (map snd out) /\
  exists m s, 0 <= s /\ out = map (fun z => Cscal s (z - m)%C) row.
Proof.
  intros Hs Hc. assert (Hne : row <> []) by (intros ->; apply Hc; intros x y []).
  destruct (mid_point_ok row C0 Hne) as (o & c & E & Eo & a & b & a' & b' & S1 & M1 & S2 & M2).
  assert (Hl : length o = length row) by (rewrite Eo; apply map_length).
  assert (Hon : o <> []) by (destruct o; [destruct row; [contradiction|discriminate]|discriminate]).
  destruct (row_peak_ex o Hon) as (m & _ & P).
  assert (Pm : 0 < m).
  { destruct (Rle_lt_dec m 0) as [L|L]; [|exact L]. exfalso. apply Hc. intros x y Hx Hy.
    assert (Z : forall z, In z row -> (z + c)%C = C0).
    { intros z Hz. destruct (Ceq_dec (z + c)%C C0) as [e|n]; [exact e|]. exfalso.
      assert (0 < m); [|lra]. apply (peak_pos m o (z + c)%C P); [|exact n]. rewrite Eo. apply (in_map (fun z => (z + c)%C)). exact Hz. }
    pose proof (Z x Hx) as Zx. pose proof (Z y Hy) as Zy. assert (Q : forall z : C, z = ((z + c) - c)%C) by (intros z; cring).
    rewrite (Q x), (Q y), Zx, Zy. reflexivity. }
  exists (map (Cscal (swing / m)) o), (swing / m * b), (swing / m * b').
  assert (Hq : 0 <= swing / m) by (apply Rmult_le_pos; [exact Hs|left; now apply Rinv_0_lt_compat]).
  cbn [fst snd C0] in M1, M2. split; [|split; [|split; [|split]]].
  - unfold set_mid_and_resale. cbn [concat hd]. rewrite app_nil_r, E. cbn [bind].
    assert (Ec : chunks (length row) o = [o]).
    { rewrite <- Hl. rewrite <- (app_nil_r o) at 2. change (o ++ []) with (concat [o]). apply chunks_concat.
      - destruct o; [contradiction|cbn; lia].
      - intros r [<-|[]]. reflexivity. }
    rewrite Ec. unfold rescale_signal. cbn [mapM]. rewrite (row_peak_spec o m P). cbn [bind broadcast map mapM fst snd].
    rewrite (rescale_row_ok o m swing Pm P). cbn [bind]. rewrite map_map. reflexivity.
  - now apply peak_scal.
  - replace (- (swing / m * b)) with (swing / m * a) by (replace a with (- b) by lra; ring).
    replace (map fst (map (Cscal (swing / m)) o)) with (map (fun x => swing / m * x) (map fst o)) by (rewrite !map_map; reflexivity). now apply spans_scal.
  - replace (- (swing / m * b')) with (swing / m * a') by (replace a' with (- b') by lra; ring).
    replace (map snd (map (Cscal (swing / m)) o)) with (map (fun x => swing / m * x) (map snd o)) by (rewrite !map_map; reflexivity). now apply spans_scal.
  - exists (Copp c), (swing / m). split; [exact Hq|]. rewrite Eo, map_map. apply map_ext. intros z. apply C_eq; unfold Cscal, Csub, Cadd, Copp; cbn [fst snd]; ring.
Qed.
Lemma mid_one_dimension row mid swing : row <> [] -> set_mid_and_resale (D1 row) mid swing = Err IndexError.
Proof. intros H. unfold set_mid_and_resale. destruct (mid_point_ok row mid H) as (o & c & -> & _). reflexivity. Qed.
(** two real samples d apart about the mid-position m *)
Lemma mid_offset d m : 0 < d -> 0 < m -> set_mid_and_resale (D2 [[(0, 0); (2 * d, 0)]]) (m, 0) [1] =
  Ok [[Some ((m - d) / (m + d), 0); Some (1, 0)]] /\ ((m - d) / (m + d) + 1) / 2 = m / (m + d).
Proof.
  intros Hd Hm. split; [|field; lra]. unfold set_mid_and_resale. cbn [concat app hd length].
  assert (E : set_mid_point [(0, 0); (2 * d, 0)] (m, 0) = Ok [(m - d, 0); (m + d, 0)]).
  { unfold set_mid_point, rmaxl, rminl. cbn [map fst snd fold_left bind]. rewrite !Rmax_right, !Rmin_left by lra. cbn [bind].
    apply f_equal. apply (f_equal2 cons); [|apply (f_equal2 cons); [|reflexivity]]; apply C_eq; unfold Cadd, Csub; cbn [fst snd]; field. }
  etransitivity; [apply (f_equal (fun x => bind x _)); exact E|]. cbn [bind]. change (chunks 2 [(m - d, 0); (m + d, 0)]) with [[(m - d, 0); (m + d, 0)] : list C].
  assert (P : peak (m + d) [(m - d, 0); (m + d, 0)]).
  { split.
    - intros z [<-|[<-|[]]]; split; cbn [fst snd]; rewrite ?Rabs_R0; try lra; unfold Rabs; destruct (Rcase_abs _); lra.
    - exists (m + d, 0). split; [right; now left|]. left. cbn [fst]. apply Rabs_right. lra. }
  unfold rescale_signal. cbn [mapM]. rewrite (row_peak_spec _ _ P). cbn [bind broadcast map mapM fst snd].
  rewrite (rescale_row_ok _ (m + d) 1 ltac:(lra) P). cbn [bind map].
  assert (A : Cscal (1 / (m + d)) (m - d, 0) = ((m - d) / (m + d), 0)) by (apply C_eq; unfold Cscal; cbn [fst snd]; field; lra).
  assert (B : Cscal (1 / (m + d)) (m + d, 0) = (1, 0)) by (apply C_eq; unfold Cscal; cbn [fst snd]; field; lra).
  rewrite A, B. reflexivity.
Qed.

(** ** get_center_shift_fac *)
Lemma shift_row_mean row : row <> [] -> exists c, shift_row row = Some c /\ sample_mean (map (fun z => (z + c)%C) row) = C0 /\
  forall c', sample_mean (map (fun z => (z + c')%C) row) = C0 -> c' = c.
Proof.
  intros H. assert (Hl : INR (length row) <> 0) by (apply not_0_INR; destruct row; [contradiction|discriminate]).
  assert (G : forall c, sample_mean (map (fun z => (z + c)%C) row) = (Cmean row + c)%C).
  { intros c. unfold sample_mean, Cmean. rewrite map_length, Csum_map_add, map_id.
    assert (K : Csum (map (fun _ : C => c) row) = Cscal (INR (length row)) c).
    { clear H Hl. induction row as [|x row IH]; [apply C_eq; unfold Cscal; cbn; ring|]. cbn [map length]. rewrite Csum_cons, IH, S_INR.
      apply C_eq; unfold Cscal, Cadd; cbn [fst snd]; ring. }
    rewrite K. apply C_eq; unfold Cscal, Cadd; cbn [fst snd]; field; exact Hl. }
  exists (Copp (Cmean row)). split; [destruct row; [contradiction|reflexivity]|]. split; [rewrite G; cring|].
  intros c' E. rewrite G in E. transitivity ((Cmean row + c') - Cmean row)%C; [cring|]. rewrite E. cring.
Qed.

(** ** symbol based normalisation *)
Lemma csel_map f rx tx s : Csel (map f rx) tx s = map f (Csel rx tx s).
Proof.
  revert tx; induction rx as [|r rx IH]; intros [|t tx]; try reflexivity. cbn [map]. rewrite !Csel_cons, IH. destruct (Ceq_dec t s); reflexivity.
Qed.
Lemma snr_step rx tx s al ps pn l : Csel rx tx s = l -> l <> [] -> snr_loop rx tx (s :: al) ps pn =
  snr_loop rx tx al (ps + Cnorm2 (Cmean l) * (INR (length l) / INR (length rx)))
    (pn + sqrt (Rsum (map (fun w => Cnorm2 (w - Cmean l)%C) l) / INR (length l)) ^ 2 * (INR (length l) / INR (length rx))).
Proof. intros E H. cbn [snr_loop]. rewrite E. destruct l; [contradiction|reflexivity]. Qed.
Lemma snr_loop_scal a rx tx al : 0 < a -> forall ps pn, snr_loop (map (Cscal a) rx) tx al (a * a * ps) (a * a * pn) =
  option_map (fun p => (a * a * fst p, a * a * snd p)) (snr_loop rx tx al ps pn).
Proof.
  intros Ha. induction al as [|s al IH]; intros ps pn; [reflexivity|].
  destruct (Csel rx tx s) as [|z sel] eqn:Es; [cbn [snr_loop]; rewrite csel_map, Es; reflexivity|]. remember (z :: sel) as l eqn:El.
  assert (Hn : l <> []) by (subst l; discriminate).
  rewrite (snr_step rx tx s al ps pn l Es Hn).
  rewrite (snr_step (map (Cscal a) rx) tx s al _ _ (map (Cscal a) l)); [|rewrite csel_map, Es; reflexivity|destruct l; [contradiction|discriminate]].
  rewrite !map_length, <- IH.
  assert (M : Cmean (map (Cscal a) l) = Cscal a (Cmean l)).
  { unfold Cmean. rewrite map_length. assert (K : Csum (map (Cscal a) l) = Cscal a (Csum l)).
    { generalize l. intros l'. induction l' as [|x l' IHl]; [apply C_eq; unfold Cscal; cbn; ring|]. cbn [map]. rewrite !Csum_cons, IHl.
      apply C_eq; unfold Cscal, Cadd; cbn [fst snd]; ring. }
    rewrite K. apply C_eq; unfold Cscal; cbn [fst snd]; ring. }
  rewrite M, Cnorm2_scal. set (K := INR (length l)).
  assert (HK : 0 < K) by (apply lt_0_INR; subst l; cbn [length]; lia).
  assert (V : Rsum (map (fun w => Cnorm2 (w - Cscal a (Cmean l))%C) (map (Cscal a) l)) = a * a * Rsum (map (fun w => Cnorm2 (w - Cmean l)%C) l)).
  { rewrite map_map, <- Rsum_map_scal. apply f_equal. apply map_ext. intros w. rewrite <- Cnorm2_scal. apply f_equal.
    apply C_eq; unfold Cscal, Csub; cbn [fst snd]; ring. }
  rewrite V. set (v := Rsum (map (fun w => Cnorm2 (w - Cmean l)%C) l)).
  assert (Hv : 0 <= v) by (apply Rsum_nonneg; intros x Hx; apply in_map_iff in Hx as (w & <- & _); apply Cnorm2_nonneg).
  assert (Q : forall x, 0 <= x -> sqrt x ^ 2 = x) by (intros x Hx; rewrite <- Rsqr_pow2; now apply Rsqr_sqrt).
  assert (Hi : 0 <= / K) by (left; now apply Rinv_0_lt_compat). assert (Haa : 0 < a * a) by (apply Rmult_lt_0_compat; exact Ha).
  rewrite !Q; [|apply Rmult_le_pos; assumption|apply Rmult_le_pos; [apply Rmult_le_pos; lra|exact Hi]].
  replace (a * a * ps + a * a * Cnorm2 (Cmean l) * (K / INR (length rx))) with (a * a * (ps + Cnorm2 (Cmean l) * (K / INR (length rx)))) by ring.
  replace (a * a * pn + a * a * v / K * (K / INR (length rx))) with (a * a * (pn + v / K * (K / INR (length rx)))) by (unfold Rdiv; ring).
  reflexivity.
Qed.
Lemma estimate_scal a rx tx al : 0 < a -> estimate_snr (map (Cscal a) rx) tx al = option_map (fun p => (a * a * fst p, a * a * snd p)) (estimate_snr rx tx al).
Proof. intros Ha. unfold estimate_snr. rewrite <- snr_loop_scal by exact Ha. rewrite !Rmult_0_r. reflexivity. Qed.

Lemma est_synced mp symbols sig : length symbols = length sig -> row_len symbols = row_len sig ->
  est_snr mp symbols sig true = Ok (map (fun i => estimate_snr (nth i sig []) (nth i symbols []) (coded_symbols mp)) (seq 0 (length sig))).
Proof.
  intros Hl Hr. unfold est_snr, signal_sync_and_adjust, adjust_only. rewrite Hl, Nat.ltb_irrefl, Hl, Nat.eqb_refl, Hr, Nat.eqb_refl. cbn [andb bind fst snd].
  apply mapM_ok. intros i Hi. apply in_seq in Hi. unfold getn.
  rewrite (nth_error_nth' sig []) by lia. rewrite (nth_error_nth' symbols []) by lia. reflexivity.
Qed.
Lemma list_as_seq {A} (l : list A) d n : length l = n -> l = map (fun i => nth i l d) (seq 0 n).
Proof.
  revert n; induction l as [|a l IH]; intros n <-; [reflexivity|]. cbn [length seq map nth]. f_equal. rewrite <- seq_shift, map_map. now apply IH.
Qed.
Lemma combine_maps {A B D} (f : A -> B) (g : A -> D) l : combine (map f l) (map g l) = map (fun x => (f x, g x)) l.
Proof. induction l as [|a l IH]; [reflexivity|]. cbn [map combine]. now rewrite IH. Qed.
Lemma row_len_map (f : list C -> list C) l : (forall r, length (f r) = length r) -> row_len (map f l) = row_len l.
Proof. intros H. destruct l; [reflexivity|]. apply H. Qed.

Lemma symbol_normalise_ok mp symbols sig res : length symbols = length sig -> row_len symbols = row_len sig ->
  est_snr mp symbols (map (fun r => map (fun z => (z - sample_mean r)%C) r) sig) true = Ok (map Some res) -> Forall (fun p => 0 < fst p) res ->
  exists out, symbol_normalise mp symbols sig true = Ok (map (map Some) out) /\
    est_snr mp symbols out true = Ok (map (fun p => Some (1, snd p / fst p)) res) /\
    Forall2 (fun x y => (x <> [] -> sample_mean y = C0) /\ exists m a, shifted_scaled m a x y) sig out.
Proof.
  intros Hl Hr E Hp. change (fun r => map (fun z => (z - sample_mean r)%C) r) with center_row in E.
  set (n := length sig) in *. set (c := map center_row sig) in *.
  assert (Hc : length c = n) by apply map_length.
  assert (Hrc : row_len symbols = row_len c) by (unfold c; rewrite row_len_map by apply center_length; exact Hr).
  pose proof E as E0. rewrite est_synced in E0 by (try exact Hrc; rewrite Hc; exact Hl). rewrite Hc in E0.
  assert (E1 : map (fun i => estimate_snr (nth i c []) (nth i symbols []) (coded_symbols mp)) (seq 0 n) = map Some res) by congruence. clear E0.
  assert (Hres : length res = n) by (apply (f_equal (@length _)) in E1; rewrite !map_length, seq_length in E1; auto).
  set (al := coded_symbols mp) in *.
  assert (Hi : forall i, (i < n)%nat -> estimate_snr (nth i c []) (nth i symbols []) al = Some (nth i res (0, 0)) /\ 0 < fst (nth i res (0, 0))).
  { intros i Hi. split.
    - assert (N : nth_error (map (fun i => estimate_snr (nth i c []) (nth i symbols []) al) (seq 0 n)) i = nth_error (map Some res) i) by now rewrite E1.
      rewrite (map_nth_error (fun i => estimate_snr (nth i c []) (nth i symbols []) al) i (seq 0 n) (d := i)) in N.
      2:{ rewrite (nth_error_nth' _ 0%nat) by (rewrite seq_length; exact Hi). now rewrite seq_nth. }
      rewrite (map_nth_error Some i res (d := nth i res (0, 0))) in N by (apply nth_error_nth'; lia). congruence.
    - rewrite Forall_forall in Hp. apply Hp. apply nth_In. lia. }
  set (sc := fun i => / sqrt (fst (nth i res (0, 0)))).
  assert (Hsq : forall i, (i < n)%nat -> 0 < sqrt (fst (nth i res (0, 0)))) by (intros i L; apply sqrt_lt_R0, Hi, L).
  set (out := map (fun i => map (Cscal (sc i)) (nth i c [])) (seq 0 n)). exists out. split; [|split].
  - unfold symbol_normalise. fold c. rewrite E. cbn [bind]. apply (f_equal Ok).
    rewrite (list_as_seq c [] n Hc) at 1. rewrite (list_as_seq res (0, 0) n Hres) at 1. rewrite map_map, combine_maps, map_map. unfold out. rewrite map_map.
    apply map_ext_in. intros i Hin. apply in_seq in Hin. cbn [fst snd]. destruct (nth i res (0, 0)) as [s0 pn] eqn:En. unfold cdiv_row, sc. rewrite map_map.
    apply map_ext. intros z. rewrite En. cbn [fst]. pose proof (Hsq i ltac:(lia)) as Q. rewrite En in Q. cbn [fst] in Q. destruct (Req_EM_T (sqrt s0) 0); [lra|]. reflexivity.
  - assert (Ho : length out = n) by (unfold out; rewrite map_length; apply seq_length).
    rewrite est_synced.
    + rewrite Ho. apply (f_equal Ok). rewrite (list_as_seq res (0, 0) n Hres) at 1. rewrite map_map. apply map_ext_in. intros i Hin. apply in_seq in Hin.
      assert (En : nth i out [] = map (Cscal (sc i)) (nth i c [])).
      { apply nth_error_nth. unfold out. apply (map_nth_error (fun i => map (Cscal (sc i)) (nth i c [])) i (seq 0 n) (d := i)).
        rewrite (nth_error_nth' _ 0%nat) by (rewrite seq_length; lia). now rewrite seq_nth by lia. }
      rewrite En. pose proof (Hsq i ltac:(lia)) as Q. rewrite estimate_scal by (unfold sc; now apply Rinv_0_lt_compat).
      fold al. destruct (Hi i ltac:(lia)) as [-> Pp]. cbn [option_map]. apply (f_equal Some).
      assert (S2 : sc i * sc i = / fst (nth i res (0, 0))).
      { unfold sc. rewrite <- Rinv_mult, sqrt_sqrt by lra. reflexivity. }
      rewrite S2. apply (f_equal2 pair); field; lra.
    + rewrite Ho. exact Hl.
    + rewrite Hrc. unfold out. destruct c as [|c0 c']; [cbn in Hc; rewrite <- Hc; reflexivity|]. cbn in Hc. rewrite <- Hc. cbn [seq map row_len nth]. now rewrite map_length.
  - rewrite (list_as_seq sig [] n eq_refl) at 1. unfold out.
    assert (G : forall l, (forall i, In i l -> (i < n)%nat) -> Forall2 (fun x y => (x <> [] -> sample_mean y = C0) /\ (exists m a, shifted_scaled m a x y))
      (map (fun i => nth i sig []) l) (map (fun i => map (Cscal (sc i)) (nth i c [])) l)).
    { intros l. induction l as [|i l IH]; intros Hin; [constructor|]. cbn [map]. constructor; [|apply IH; intros; apply Hin; now right].
      assert (Li : (i < n)%nat) by (apply Hin; now left). pose proof (Hsq i Li) as Q.
      assert (Ec : nth i c [] = center_row (nth i sig [])).
      { apply nth_error_nth. apply map_nth_error. apply nth_error_nth'. exact Li. }
      rewrite Ec. split.
      - intros Hne. pose proof (center_mean _ Hne) as Z. unfold sample_mean.
        assert (K : Csum (map (Cscal (sc i)) (center_row (nth i sig []))) = Cscal (sc i) (Csum (center_row (nth i sig [])))).
        { generalize (center_row (nth i sig [])). intros l'. induction l' as [|x l' IHl]; [apply C_eq; unfold Cscal; cbn; ring|]. cbn [map]. rewrite !Csum_cons, IHl.
          apply C_eq; unfold Cscal, Cadd; cbn [fst snd]; ring. }
        rewrite K, Z. apply C_eq; unfold Cscal; cbn; ring.
      - exists (Cmean (nth i sig [])), (sc i). split; [unfold sc; now apply Rinv_0_lt_compat|]. unfold center_row. rewrite map_map. reflexivity. }
    apply G. intros i Hin. apply in_seq in Hin. lia.
Qed.
Lemma shift_fac_rows rows i row : nth_error rows i = Some row -> row <> [] ->
  exists c, nth_error (get_center_shift_fac (D2 rows)) i = Some (Some c) /\ sample_mean (map (fun z => (z + c)%C) row) = C0 /\
    forall c', sample_mean (map (fun z => (z + c')%C) row) = C0 -> c' = c.
Proof.
  intros E H. destruct (shift_row_mean row H) as (c & Ec & A & B). exists c. split; [|split; assumption]. cbn [get_center_shift_fac]. now rewrite nth_error_map, E, <- Ec.
Qed.
Lemma shift_fac_flat row : row <> [] -> exists c, get_center_shift_fac (D1 row) = [Some c] /\ sample_mean (map (fun z => (z + c)%C) row) = C0.
Proof. intros H. destruct (shift_row_mean row H) as (c & Ec & A & _). exists c. cbn [get_center_shift_fac]. now rewrite Ec. Qed.
Lemma norm_ex : estimate_snr [(3, 0); (-3, 0)] [(1, 0); (-1, 0)] [(1, 0); (-1, 0)] = Some (9, 0).
Proof.
  assert (N : (-1, 0) <> (1, 0)) by (intros E; assert (W : fst (-1, 0) = fst (1, 0)) by congruence; cbn [fst] in W; lra).
  assert (S1 : Csel [(3, 0); (-3, 0)] [(1, 0); (-1, 0)] (1, 0) = [(3, 0)]).
  { rewrite !Csel_cons. destruct (Ceq_dec (1, 0) (1, 0)); [|congruence]. destruct (Ceq_dec (-1, 0) (1, 0)); [contradiction|]. reflexivity. }
  assert (S2 : Csel [(3, 0); (-3, 0)] [(1, 0); (-1, 0)] (-1, 0) = [(-3, 0)]).
  { rewrite !Csel_cons. destruct (Ceq_dec (1, 0) (-1, 0)) as [e|_]; [symmetry in e; contradiction|]. destruct (Ceq_dec (-1, 0) (-1, 0)); [|congruence]. reflexivity. }
  unfold estimate_snr. rewrite (snr_step _ _ _ _ _ _ _ S1) by discriminate. rewrite (snr_step _ _ _ _ _ _ _ S2) by discriminate. cbn [snr_loop].
  assert (M : forall a b, Cmean [(a, b)] = (a, b)) by (intros a b; apply C_eq; unfold Cmean, Cscal, Csum, Cadd, C0; cbn [fold_right length INR fst snd]; field).
  rewrite !M. cbn [map length]. rewrite !Rsum_cons. change (Rsum []) with 0. cbn [INR]. unfold Cnorm2, Csub. cbn [fst snd].
  apply (f_equal Some). apply (f_equal2 pair); [field|].
  replace (((3 - 3) * (3 - 3) + (0 - 0) * (0 - 0) + 0) / 1) with 0 by field.
  replace (((-3 - -3) * (-3 - -3) + (0 - 0) * (0 - 0) + 0) / 1) with 0 by field. rewrite sqrt_0. field.
Qed.
