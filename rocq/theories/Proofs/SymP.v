(** SymbolOnlySignal. *)
From Coq Require Import List Arith Bool Lia Reals Lra Sorted.
From Verif Require Import Common.Py Common.Cplx Common.ListX Model.Helpers Model.Constellation Model.Decision Model.Sync Model.Quality Model.Hybrid
  Model.Prbs Model.Classes Spec.Metrics Spec.Seq Proofs.QualityP Proofs.HybridQ.
Import ListNotations.
Local Open Scope R_scope.

Lemma decide_rows cs rows : (forall row, In row rows -> row <> [] -> cs <> []) -> symbol_decide cs (D2 rows) = Ok (map (map (dsym cs)) rows).
Proof.
  intros H. unfold symbol_decide. apply mapM_ok. intros row Hr.
  destruct row as [|x row]; [reflexivity|]. rewrite make_decision_ok by (apply (H _ Hr); discriminate). cbn [bind]. rewrite map_map. reflexivity.
Qed.
Lemma dsym_nearest cs x : cs <> [] -> nearest cs x (dsym cs x).
Proof.
  intros H. destruct (dec1_ok cs x H) as (_ & (N1 & N2 & _) & _). split; [apply nth_error_In in N1; exact N1|].
  intros t Ht. apply In_nth_error in Ht as (j & Ej). exact (N2 j t Ej).
Qed.
Lemma over_fixed cs rows : over cs rows -> map (map (dsym cs)) rows = rows.
Proof.
  intros H. rewrite <- (map_id rows) at 2. apply map_ext_in. intros row Hr. rewrite <- (map_id row) at 2. apply map_ext_in. intros z Hz.
  apply dsym_point. unfold over in H. rewrite Forall_forall in H. specialize (H row Hr). rewrite Forall_forall in H. exact (H z Hz).
Qed.
Lemma nearest_rows cs rows : cs <> [] -> Forall2 (Forall2 (nearest cs)) rows (map (map (dsym cs)) rows).
Proof.
  intros H. induction rows as [|row rows IH]; cbn [map]; constructor; [|exact IH].
  induction row as [|x row IHr]; cbn [map]; constructor; [apply dsym_nearest; exact H|exact IHr].
Qed.
Lemma from_given rows l : l <> [] -> exists s, symbol_from_array (D2 rows) (Some l) = Ok s /\
  y_coded s = l /\ y_M s = length l /\ y_symbols s = y_samples s /\ Forall2 (Forall2 (nearest l)) rows (y_samples s) /\ (over l rows -> y_samples s = rows).
Proof.
  intros H. unfold symbol_from_array. rewrite decide_rows by (intros; exact H). cbn [bind]. eexists. split; [reflexivity|]. cbn [y_coded y_M y_symbols y_samples].
  repeat split; [apply nearest_rows; exact H|apply over_fixed].
Qed.
Lemma unique_NoDup l : NoDup (np_unique l).
Proof.
  pose proof (unique_sorted l) as S. induction (np_unique l) as [|x r IH]; [constructor|]. inversion S as [|? ? Sr F]; subst. constructor; [|apply IH; exact Sr].
  intros Hi. rewrite Forall_forall in F. specialize (F x Hi). unfold clt in F. lra.
Qed.
Lemma from_default rows : exists s, symbol_from_array (D2 rows) None = Ok s /\
  y_samples s = rows /\ y_symbols s = rows /\ y_M s = length (y_coded s) /\ NoDup (y_coded s) /\
  (forall z, In z (y_coded s) <-> exists row, In row rows /\ In z row).
Proof.
  assert (Hin : forall z, In z (np_unique (concat rows)) <-> exists row, In row rows /\ In z row).
  { intros z. rewrite unique_in, in_concat. split; intros (row & A & B); exists row; auto. }
  unfold symbol_from_array. rewrite decide_rows.
  2: { intros row Hr Hne E. destruct row as [|x row]; [congruence|]. assert (X : In x (np_unique (concat rows))) by (apply Hin; exists (x :: row); cbn; auto). rewrite E in X. exact X. }
  cbn [bind]. rewrite over_fixed. 2: { apply Forall_forall. intros row Hr. apply Forall_forall. intros z Hz. apply Hin. exists row. auto. }
  eexists. split; [reflexivity|]. cbn [y_coded y_M y_symbols y_samples]. repeat split; try apply unique_NoDup; apply Hin.
Qed.
Lemma from_row row l : symbol_from_array (D1 row) l = symbol_from_array (D2 [row]) l.
Proof. reflexivity. Qed.
Lemma sym_ser s sig synced tx rx N : y_coded s <> [] -> signal_sync_and_adjust (y_symbols s) sig synced = Ok (tx, rx) ->
  (0 < N)%nat -> rect tx N -> rect rx N -> length tx = length rx ->
  exists ser, symbol_cal_ser s sig synced = Ok (map Some ser) /\ length ser = length rx /\
    forall m t r, nth_error tx m = Some t -> nth_error rx m = Some r ->
      exists e dec, nth_error ser m = Some e /\ Forall2 (nearest (y_coded s)) r dec /\ (Forall (fun z => In z (y_coded s)) r -> dec = r) /\
        INR N * e = INR (n_errors dec t).
Proof.
  intros Hc Hs HN Ht Hr Hl. set (cs := y_coded s) in *. unfold symbol_cal_ser. rewrite Hs. cbn [bind fst snd]. fold cs.
  rewrite decide_rows by (intros; exact Hc). cbn [bind].
  rewrite (rowwise_ok count_diff n_errors) ; [| rewrite map_length; auto|].
  2: { intros i x y Hx Hy. apply count_diff_ok. pose proof (rect_nth _ _ _ _ Ht Hy). rewrite nth_error_map in Hx. destruct (nth_error rx i) as [r|] eqn:Er; [|discriminate].
       injection Hx as <-. rewrite map_length. pose proof (rect_nth _ _ _ _ Hr Er). congruence. }
  cbn [bind]. exists (map (fun p => INR (n_errors (fst p) (snd p)) / INR N) (combine (map (map (dsym cs)) rx) tx)). split.
  { apply (f_equal Ok). rewrite !map_map. destruct rx as [|r0 rx']; [reflexivity|]. apply map_ext. intros p.
    rewrite (row_len_map (map (dsym cs)) (r0 :: rx') N N); [|discriminate|exact Hr|intros q Hq; rewrite map_length; exact Hq].
    unfold ratio. destruct N; [lia|]. reflexivity. }
  split; [rewrite map_length, combine_length, map_length; lia|].
  intros m t r Et Er. exists (INR (n_errors (map (dsym cs) r) t) / INR N), (map (dsym cs) r). split.
  { erewrite map_nth_error; [|instantiate (1 := (map (dsym cs) r, t))]; [reflexivity|].
    clear -Et Er. revert tx m Et Er. induction rx as [|a rx IH]; intros [|b tx] [|m] Et Er; cbn in *; try discriminate; [congruence|apply IH; assumption]. }
  split. { clear -Hc. induction r as [|x r IH]; cbn [map]; constructor; [apply dsym_nearest; exact Hc|exact IH]. }
  split. { intros F. pose proof (over_fixed cs [r] ltac:(constructor; [exact F|constructor])) as O. cbn [map] in O. injection O as O. exact O. }
  field. apply not_0_INR. lia.
Qed.
Lemma sym_self s modes N : (0 < N)%nat -> (0 < modes)%nat -> rect (y_samples s) N -> length (y_samples s) = modes -> y_symbols s = y_samples s -> over (y_coded s) (y_samples s) ->
  symbol_cal_ser s (y_samples s) true = Ok (repeat (Some 0) modes).
Proof.
  intros HN Hm HR HL HE HO.
  assert (Hc : y_coded s <> []).
  { destruct (y_samples s) as [|r rs]; [cbn in HL; lia|]. inversion HO as [|? ? F _]; subst. inversion HR as [|? ? L _]; subst. destruct r as [|z r]; [cbn in HN; lia|].
    inversion F as [|? ? I _]; subst. intros E. rewrite E in I. exact I. }
  destruct (sym_ser s (y_samples s) true (y_samples s) (y_samples s) N Hc) as (ser & E & L & S); try assumption; [|reflexivity|].
  { rewrite HE. unfold signal_sync_and_adjust, adjust_only. rewrite Nat.ltb_irrefl, !Nat.eqb_refl. reflexivity. }
  rewrite E. apply (f_equal Ok). assert (Es : ser = repeat 0 modes).
  { apply nth_error_ext. intros m. destruct (nth_error (y_samples s) m) as [r|] eqn:Er.
    - destruct (S m r r Er Er) as (e & dec & Ee & _ & Hd & Hn). rewrite Ee. assert (Hmm : (m < modes)%nat) by (rewrite <- HL; apply nth_error_Some; congruence).
      rewrite (nth_error_nth' _ 0) by (rewrite repeat_length; exact Hmm). rewrite nth_repeat. f_equal.
      rewrite Hd in Hn by (unfold over in HO; rewrite Forall_forall in HO; apply HO; apply nth_error_In in Er; exact Er).
      assert (Z : n_errors r r = 0%nat). { clear. unfold n_errors. induction r as [|z r IH]; [reflexivity|]. cbn [combine filter fst snd]. destruct (Ceq_dec z z) as [_|X]; [exact IH|congruence]. }
      rewrite Z in Hn. cbn [INR] in Hn. assert (0 < INR N) by (apply lt_0_INR; exact HN). nra.
    - apply nth_error_None in Er. rewrite HL in Er. transitivity (@None R); [|symmetry]; apply nth_error_None; [lia|rewrite repeat_length; exact Er]. }
  rewrite Es. clear. induction modes as [|k IH]; [reflexivity|]. cbn [repeat map]. rewrite IH. reflexivity.
Qed.
Lemma sym_mi s sig synced tx rx fast : signal_sync_and_adjust (y_symbols s) sig synced = Ok (tx, rx) -> symbol_cal_mi s sig synced None fast = Err TypeError.
Proof. intros E. unfold symbol_cal_mi. rewrite E. reflexivity. Qed.
Lemma sym_new pick M n symbols nmodes : symbols <> [] -> exists s, SymbolOnlySignal pick M n symbols nmodes = Ok s /\
  y_coded s = symbols /\ y_M s = M /\ y_symbols s = y_samples s /\ length (y_samples s) = nmodes /\ rect (y_samples s) n /\ over symbols (y_samples s) /\
  forall i k row, (k < n)%nat -> nth_error (y_samples s) i = Some row -> nth_error row k = nth_error symbols (pick i k mod length symbols).
Proof.
  intros H. unfold SymbolOnlySignal.
  assert (Hl : length symbols <> 0%nat) by (destruct symbols; [congruence|discriminate]).
  set (g i k := nth (pick i k mod length symbols) symbols C0).
  assert (Hg : forall i k, nth_error symbols (pick i k mod length symbols) = Some (g i k)) by (intros i k; apply nth_error_nth', Nat.mod_upper_bound; exact Hl).
  rewrite (mapM_ok _ (fun i => map (g i) (seq 0 n))).
  2: { intros i _. apply mapM_ok. intros k _. destruct symbols as [|a l]; [congruence|]. unfold getn. rewrite Hg. reflexivity. }
  cbn [bind]. eexists. split; [reflexivity|]. cbn [y_coded y_M y_symbols y_samples]. repeat split.
  - rewrite map_length, seq_length. reflexivity.
  - apply Forall_forall. intros row Hr. apply in_map_iff in Hr as (i & <- & _). rewrite map_length, seq_length. reflexivity.
  - apply Forall_forall. intros row Hr. apply in_map_iff in Hr as (i & <- & _). apply Forall_forall. intros z Hz. apply in_map_iff in Hz as (k & <- & _).
    apply nth_In, Nat.mod_upper_bound. exact Hl.
  - intros i k row Hk Er. assert (Hi : (i < nmodes)%nat) by (assert (X : nth_error (map (fun i => map (g i) (seq 0 n)) (seq 0 nmodes)) i <> None) by congruence; apply nth_error_Some in X; rewrite map_length, seq_length in X; exact X).
    rewrite (map_nth_error _ i (seq 0 nmodes) (d := i)) in Er by (rewrite nth_error_nth' with (d := 0%nat) by (rewrite seq_length; lia); rewrite seq_nth by lia; reflexivity).
    injection Er as <-. rewrite Hg. rewrite (map_nth_error _ k (seq 0 n) (d := k)) by (rewrite nth_error_nth' with (d := 0%nat) by (rewrite seq_length; lia); rewrite seq_nth by lia; reflexivity). reflexivity.
Qed.
Lemma sym_order pick : exists s, SymbolOnlySignal pick 16 5 [C0; C1] 1 = Ok s /\ y_M s <> length (y_coded s).
Proof.
  destruct (sym_new pick 16 5 [C0; C1] 1 ltac:(discriminate)) as (s & E & Hc & HM & _). exists s. split; [exact E|]. rewrite Hc, HM. discriminate.
Qed.
