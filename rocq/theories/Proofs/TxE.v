(** Filter theorems for arrays, and the concrete cases of the transmitter properties. *)
From Coq Require Import List Arith ZArith Reals Lra Lia.
From Verif Require Import Common.Py Common.Cplx Common.ListX Common.SumX Common.Dft Model.Helpers Model.Impair Model.Filters Model.Transmitter
  Spec.ImpairSpec Spec.FilterSpec Spec.TxS Proofs.FiltersP Proofs.ImpairS Proofs.TxP Proofs.TxQ Proofs.TxR.
Import ListNotations.
Local Open Scope R_scope.

Lemma filter_ok des fs cutoff ftype order sys : ftype <> OtherType -> des ftype order cutoff fs = Ok sys ->
  forall sig, match sig with
  | D1 x => exists y, filter_sos des sig fs cutoff ftype order = Ok (D1 y) /\ length y = length x /\ cascade sys x y
  | D2 X => exists Y, filter_sos des sig fs cutoff ftype order = Ok (D2 Y) /\ Forall2 (fun x y => length y = length x /\ cascade sys x y) X Y
  end.
Proof.
  intros T D sig. unfold filter_sos. destruct ftype; try congruence; rewrite D; cbn [bind].
  all: destruct sig as [x|X]; [eexists; split; [reflexivity|]; cbn [map concat]; rewrite app_nil_r; split; [apply sosfilt_length|apply sosfilt_cascade]|].
  all: eexists; split; [reflexivity|]; induction X as [|x X IH]; constructor; [split; [apply sosfilt_length|apply sosfilt_cascade]|exact IH].
Qed.
Lemma cascade_unique sos : forall x y z, cascade sos x y -> cascade sos x z -> y = z.
Proof.
  assert (U : forall s x y z, recursion s x y -> recursion s x z -> y = z).
  { intros s x y z (Ly & Hy) (Lz & Hz). apply nth_ext with C0 C0; [congruence|]. intros n Hn. rewrite Ly in Hn. revert Hn.
    induction n as [n IH] using (well_founded_induction lt_wf). intros Hn. specialize (Hy n Hn). specialize (Hz n Hn). cbv zeta in Hy, Hz.
    assert (P : forall k, (1 <= k)%nat -> at_time y (Z.of_nat n - Z.of_nat k) = at_time z (Z.of_nat n - Z.of_nat k)).
    { intros k Hk. unfold at_time. destruct (Z.ltb_spec (Z.of_nat n - Z.of_nat k) 0) as [|G]; [reflexivity|]. apply IH; lia. }
    pose proof (P 1%nat ltac:(lia)) as P1. pose proof (P 2%nat ltac:(lia)) as P2. change (Z.of_nat 1) with 1%Z in P1. change (Z.of_nat 2) with 2%Z in P2.
    rewrite <- Hz in Hy. rewrite P1, P2 in Hy. unfold at_time in Hy at 1 4.
    destruct (Z.ltb_spec (Z.of_nat n) 0) as [|G]; [lia|]. rewrite Nat2Z.id in Hy.
    set (A := Cscal (s_a1 s) (at_time z (Z.of_nat n - 1))) in *. set (B := Cscal (s_a2 s) (at_time z (Z.of_nat n - 2))) in *.
    unfold Cadd in Hy. injection Hy as H1 H2. apply C_eq; lra. }
  induction sos as [|s sos IH]; intros x y z; cbn [cascade]; [congruence|]. intros (u & U1 & V1) (w & U2 & V2).
  rewrite (U _ _ _ _ U1 U2) in V1. exact (IH _ _ _ V1 V2).
Qed.
Lemma filter_D1 des fs cutoff ftype order x u : filter_sos des (D1 x) fs cutoff ftype order = Ok (D1 u) ->
  exists sys, u = sosfilt sys x /\ forall y, filter_sos des (D1 y) fs cutoff ftype order = Ok (D1 (sosfilt sys y)).
Proof.
  unfold filter_sos. destruct (match ftype with OtherType => _ | _ => _ end) as [sys|e]; cbn [bind]; [|discriminate].
  intros H. exists sys. cbn [map concat] in *. rewrite app_nil_r in H. injection H as <-. split; [reflexivity|]. intros y. rewrite app_nil_r. reflexivity.
Qed.
Lemma filter_linear des fs cutoff ftype order a b x y u v : length x = length y ->
  filter_sos des (D1 x) fs cutoff ftype order = Ok (D1 u) -> filter_sos des (D1 y) fs cutoff ftype order = Ok (D1 v) ->
  filter_sos des (D1 (lin_comb a x b y)) fs cutoff ftype order = Ok (D1 (lin_comb a u b v)).
Proof.
  intros L Hx Hy. destruct (filter_D1 _ _ _ _ _ _ _ Hx) as (sys & -> & G). rewrite G in Hy. injection Hy as <-.
  rewrite G, sosfilt_lin by exact L. reflexivity.
Qed.
Lemma filter_causal des fs cutoff ftype order x x' u : filter_sos des (D1 (x ++ x')) fs cutoff ftype order = Ok (D1 u) ->
  filter_sos des (D1 x) fs cutoff ftype order = Ok (D1 (firstn (length x) u)).
Proof.
  intros H. destruct (filter_D1 _ _ _ _ _ _ _ H) as (sys & -> & G). rewrite G, <- sosfilt_firstn, firstn_app, Nat.sub_diag, firstn_all, app_nil_r. reflexivity.
Qed.
Lemma filter_delay des fs cutoff ftype order x u k : filter_sos des (D1 x) fs cutoff ftype order = Ok (D1 u) ->
  filter_sos des (D1 (repeat C0 k ++ x)) fs cutoff ftype order = Ok (D1 (repeat C0 k ++ u)).
Proof. intros H. destruct (filter_D1 _ _ _ _ _ _ _ H) as (sys & -> & G). rewrite G, sosfilt_zeros. reflexivity. Qed.

(** ** clipping two modes of different amplitude *)
Lemma clip_factor : ~ forall des sig peaks fs c nr ni out, Forall2 (fun row m => 0 < m /\ peak m row) sig peaks ->
  0 < c -> / 100000000 + / 100000 < Rabs (c - 1) -> sim_DAC_response des sig fs (mk_dac c 0 0 None) nr ni = Ok (Some out) ->
  exists g, 0 < g /\ out = map (fun p => map (fun z => Cscal g (limit (c * snd p) (fst z), limit (c * snd p) (snd z))) (fst p)) (combine sig peaks).
Proof.
  intros H. assert (F : Forall2 (fun row m => 0 < m /\ peak m row) [[(1, 0)]; [(/ 4, 0)]] [1; / 4]).
  { constructor; [split; [lra|apply peak_single; lra]|]. constructor; [split; [lra|apply peak_single; lra]|constructor]. }
  assert (Hc : / 100000000 + / 100000 < Rabs (/ 2 - 1)) by (rewrite Rabs_left; lra).
  pose proof (DAC_clip (fun _ _ _ _ => Ok []) _ _ 1 (/ 2) [] [] F ltac:(lra) Hc) as D.
  destruct (H _ _ _ _ (/ 2) _ _ _ F ltac:(lra) Hc D) as (g & Hg & E). cbn [map combine fst snd] in E. unfold Cscal, limit in E. cbn [fst snd] in E.
  injection E as E1 _ E2 _. rewrite (Rmin_left (/ 2 * 1)), Rmax_right in E1 by lra. rewrite (Rmin_left (/ 2 * / 4)), Rmax_right in E2 by lra. lra.
Qed.
Lemma clip_case des nr ni : sim_DAC_response des [[(1, - (1 / 4)); (0, 1 / 8)]] 1 (mk_dac (1 / 2) 0 0 None) nr ni =
  Ok (Some [[(1, - (1 / 2)); (0, 1 / 4)]]).
Proof.
  rewrite (DAC_clip_common des _ 1).
  - cbn [map fst snd]. unfold limit, Cscal. cbn [fst snd].
    rewrite (Rmin_left (1 / 2 * 1) 1), (Rmin_right (1 / 2 * 1) (- (1 / 4))), (Rmin_right (1 / 2 * 1) 0), (Rmin_right (1 / 2 * 1) (1 / 8)), !Rmax_right by lra.
    apply (f_equal (fun x => Ok (Some [x]))). apply (f_equal2 cons); [|apply (f_equal2 cons); [|reflexivity]]; apply C_eq; cbn [fst snd]; field.
  - lra.
  - intros row [<-|[]]. split.
    + intros z [<-|[<-|[]]]; unfold within; cbn [fst snd]; rewrite ?Rabs_Ropp, ?Rabs_R0, ?Rabs_right by lra; lra.
    + eexists. split; [left; reflexivity|]. left. cbn [fst]. apply Rabs_right. lra.
  - lra.
  - rewrite Rabs_left; lra.
Qed.
Lemma enob_case : exists snr, apply_enob_as_awgn [[(1, 0)]] 0 [[1]] [[-1]] = Ok ([[(1 + 2 / sqrt 12, - (2 / sqrt 12))]], Some snr) /\
  Rpower 10 (snr / 10) = 3 / 2.
Proof.
  destruct (enob_ok [[(1, 0)]] 0 [[1]] [[-1]] 1 1 1) as (out & snr & E & (L & S) & N & P).
  1-3: split; [reflexivity|repeat constructor]. { lra. } { cbn [concat app]. apply peak_single. lra. }
  assert (Q : quant_sigma 1 0 = 2 / sqrt 12) by (unfold quant_sigma; rewrite Rpower_O by lra; unfold Rdiv; rewrite Rinv_1; ring).
  exists snr. rewrite E. destruct out as [|row [|? ?]]; try discriminate. pose proof (Forall_inv S) as Lr. cbn beta in Lr.
  destruct row as [|z [|? ?]]; try discriminate.
  specialize (N 0%nat _ _ _ _ eq_refl eq_refl eq_refl eq_refl 0%nat _ _ _ eq_refl eq_refl eq_refl). cbn [nth_error] in N. injection N as ->.
  rewrite Q in *. split.
  - apply (f_equal (fun x => Ok ([[x]], Some snr))). apply C_eq; unfold Cadd, Cscal; cbn [fst snd]; ring.
  - assert (S12 : 0 < sqrt 12) by (apply sqrt_lt_R0; lra). assert (E12 : (2 / sqrt 12) ^ 2 = 4 / 12).
    { transitivity (4 / (sqrt 12) ^ 2); [field; lra|]. rewrite pow2_sqrt by lra. reflexivity. }
    rewrite E12 in P. unfold sample_power in P. cbn [concat app map length] in P. unfold Cnorm2 in P. cbn [fst snd Rsum fold_right INR] in P. lra.
Qed.
Lemma enob_real_half : ~ forall sig enob nr ni m out snr, 0 < m ->
  (forall x, In x (concat sig) -> Rabs x <= m) -> (exists x, In x (concat sig) /\ Rabs x = m) ->
  apply_enob_as_awgn_real sig enob nr ni = Ok (out, Some snr) ->
  Rpower 10 (snr / 10) * quant_sigma m enob ^ 2 = Rsum (map (fun x => x ^ 2) (concat sig)) / INR (length (concat sig)).
Proof.
  intros H. assert (B : forall x, In x (concat [[1]]) -> Rabs x <= 1) by (intros x [<-|[]]; rewrite Rabs_right; lra).
  assert (X : exists x, In x (concat [[1]]) /\ Rabs x = 1) by (exists 1; split; [left; reflexivity|apply Rabs_right; lra]).
  destruct (enob_real_ok [[1]] 0 [[0]] [[0]] 1 1 1) as (out & snr & E & _ & P); try assumption; try lra; try (split; [reflexivity|repeat constructor]).
  specialize (H [[1]] 0 [[0]] [[0]] 1 out snr ltac:(lra) B X E). cbn [concat app map length Rsum fold_right INR] in *. lra.
Qed.
Lemma tx_case des nr ni : sim_tx_response des [[(4, -4); (0, 2)]] 1 1 (mk_dac 1 0 0 None) (mk_mod (1, 0) (1, 0) (0, 0) (1 / 2) 1) nr ni =
  Ok (Some [[(1 / 2, - (1 / 2)); (0, sin (PI / 4) / 2)]]).
Proof.
  rewrite (tx_ideal des _ 1 1 nr ni 4).
  - cbn [map fst snd]. replace (PI / 2 * (1 / 4 * 4)) with (PI / 2) by field. replace (PI / 2 * (1 / 4 * -4)) with (- (PI / 2)) by field.
    replace (PI / 2 * (1 / 4 * 0)) with 0 by field. replace (PI / 2 * (1 / 4 * 2)) with (PI / 4) by field. rewrite sin_neg, sin_PI2, sin_0.
    apply (f_equal (fun x => Ok (Some [x]))). apply (f_equal2 cons); [|apply (f_equal2 cons); [|reflexivity]]; apply C_eq; cbn [fst snd]; field.
  - lra.
  - cbn [concat app]. split.
    + intros z [<-|[<-|[]]]; unfold within; cbn [fst snd]; rewrite ?(Rabs_left (-4)), ?Rabs_R0, ?Rabs_right by lra; lra.
    + eexists. split; [left; reflexivity|]. left. cbn [fst]. apply Rabs_right. lra.
Qed.
Lemma dac_case : comp_dac_resp (fun _ _ _ _ => Ok []) 1 1 1 0 1 2 0 1 = Ok [Some (6 / 7, 0)].
Proof.
  unfold comp_dac_resp. destruct (Req_EM_T 1 0); [lra|]. unfold rrcos_freq, rcos_freq.
  replace (1 / 1) with 1 by field. destruct (Req_EM_T 1 0); [lra|]. cbn [bind].
  assert (F : fftfreq 1 1 = [0]).
  { unfold fftfreq. cbn [seq map]. unfold freq_bin. cbn. apply (f_equal2 cons); [field|reflexivity]. }
  rewrite F. cbn [map]. replace (0 * (1 * 1)) with 0 by ring. rewrite rc_zero by lra. rewrite sqrt_1. cbn [rmaxl fold_left bind map].
  unfold sosfreqz. cbn [seq map fold_left combine fst snd].
  assert (C1n : Cabs C1 = 1) by (unfold Cabs, Cnorm2, C1; cbn [fst snd]; replace (1 * 1 + 0 * 0) with 1 by ring; apply sqrt_1).
  rewrite C1n. unfold Rsum. cbn [fold_right]. replace (0 / 10) with 0 by field. rewrite Rpower_O by lra. rewrite Rmult_0_r, Rpower_O by lra.
  change (INR 1) with 1.
  match goal with |- context [Req_EM_T ?d 0] => replace d with (7 / 6) by field; destruct (Req_EM_T (7 / 6) 0); [lra|] end.
  apply (f_equal (fun x => Ok [Some x])). unfold Cscal, Cconj, C1. cbn [fst snd]. apply C_eq; cbn [fst snd]; field.
Qed.
(** a table at 0, 1, .., 320 *)
Lemma file_table : let rows := map (fun k => mk_row (INR k) (1 / (1 + INR k)) 0) (seq 0 321) in
  nth_error rows 0 = Some (mk_row 0 (1 / (1 + 0)) 0) /\ increasing rows /\ length rows = 321%nat /\
  nth_error rows 320 = Some (mk_row (INR 320) (1 / (1 + INR 320)) 0) /\ (forall r, In r rows -> 0 <= r_f r <= 320).
Proof.
  cbv zeta. assert (Nt : forall i a, nth_error (map (fun k => mk_row (INR k) (1 / (1 + INR k)) 0) (seq 0 321)) i = Some a -> a = mk_row (INR i) (1 / (1 + INR i)) 0 /\ (i < 321)%nat).
  { intros i a H. assert (L : (i < 321)%nat) by (rewrite <- (seq_length 321 0), <- (map_length (fun k => mk_row (INR k) (1 / (1 + INR k)) 0)); apply nth_error_Some; rewrite H; discriminate).
    rewrite nth_error_map, (seq_at 321 i L) in H. injection H as <-. auto. }
  split; [reflexivity|]. split.
  { intros i j a b L A B. apply Nt in A as (-> & _), B as (-> & _). cbn [r_f]. apply lt_INR, L. }
  split; [rewrite map_length, seq_length; reflexivity|]. split; [rewrite nth_error_map, (seq_at 321 320) by lia; reflexivity|].
  intros r Hr. apply In_nth_error in Hr as (i & Hi). apply Nt in Hi as (-> & L). cbn [r_f]. split; [apply pos_INR|].
  replace 320 with (INR 320) by (rewrite INR_IZR_INZ; reflexivity). apply le_INR. lia.
Qed.
Lemma file_fill : ~ forall rows fs N H k, 0 < fs -> increasing rows -> load_dac_response rows fs N = Ok H -> (2 * k < N)%nat ->
  (forall r, In r rows -> 0 <= r_f r < INR k * fs / INR N) -> nth k H C0 = C0.
Proof.
  intros X. destruct file_table as (E0 & Inc & L & E320 & Rg). set (rows := map _ _) in *.
  destruct (load_dac_ok rows 2000 4 _ E0 eq_refl ltac:(cbn [r_mag r_ph]; rewrite sin_0; ring) Inc ltac:(lia)) as (H & EH & _).
  assert (O : forall r, In r rows -> 0 <= r_f r < INR 1 * 2000 / INR 4) by (intros r Hr; specialize (Rg r Hr); cbn [INR]; lra).
  specialize (X rows 2000 4%nat H 1%nat ltac:(lra) Inc EH ltac:(lia) O).
  rewrite (load_dac_fill rows 2000 4 _ H E320 EH 1%nat ltac:(lia) ltac:(lra) O) in X. injection X as X. cbn [r_mag] in X.
  pose proof (pos_INR 320). assert (0 < 1 / (1 + INR 320)) by (apply Rmult_lt_0_compat; [lra|apply Rinv_0_lt_compat; lra]). lra.
Qed.
Lemma file_case : exists H, load_dac_response (map (fun k => mk_row (INR k) (1 / (1 + INR k)) 0) (seq 0 321)) 8 4 = Ok H /\ nth 1 H C0 = (1 / 3, 0) /\ nth 3 H C0 = (1 / 3, 0).
Proof.
  destruct file_table as (E0 & Inc & L & _ & _). set (rows := map _ _) in *.
  destruct (load_dac_ok rows 8 4 _ E0 eq_refl ltac:(cbn [r_mag r_ph]; rewrite sin_0; ring) Inc ltac:(lia)) as (H & EH & _ & Sy & Nd).
  exists H. split; [exact EH|]. assert (E1 : nth 1 H C0 = (1 / 3, 0)).
  { rewrite (Nd 1%nat (mk_row (INR 2) (1 / (1 + INR 2)) 0)); [|lia| |cbn [r_f INR]; field].
    - cbn [r_mag r_ph]. rewrite cos_0, sin_0. apply C_eq; cbn [fst snd INR]; field.
    - unfold rows. apply in_map_iff. exists 2%nat. split; [reflexivity|]. apply in_seq. lia. }
  split; [exact E1|]. change 3%nat with (4 - 1)%nat. rewrite Sy by lia. rewrite E1. unfold Cconj. apply C_eq; cbn [fst snd]; [reflexivity|ring].
Qed.
Lemma filter_case : filter_sos (fun _ _ _ _ => Ok [mk_sec (1 / 2) 0 0 (- (1 / 2)) 0]) (D1 [(2, 0); (0, 2); (0, 0)]) 1 (1 / 4) Butter 1 =
  Ok (D1 [(1, 0); (1 / 2, 1); (1 / 4, 1 / 2)]).
Proof.
  unfold filter_sos. cbn [bind map concat sosfilt fold_left biquad app s_b0 s_b1 s_b2 s_a1 s_a2]. apply (f_equal (fun x => Ok (D1 x))).
  unfold Cscal, Cadd, Csub, C0, Copp. cbn [fst snd].
  repeat (apply (f_equal2 cons); [apply C_eq; cbn [fst snd]; field|]). reflexivity.
Qed.
