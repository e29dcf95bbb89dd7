(** Second-order sections, transmitter chain. *)
From Coq Require Import List Arith ZArith Reals Lra Lia.
From Verif Require Import Common.Py Common.Cplx Common.ListX Common.SumX Common.Dft Model.Helpers Model.Impair Model.Filters Model.Transmitter
  Spec.Seq Spec.Equal Spec.ImpairSpec Spec.TxS Proofs.ImpairR Proofs.ImpairS.
Import ListNotations.
Local Open Scope R_scope.

(** ** biquad *)
Lemma biquad_length s x : forall z0 z1, length (biquad s z0 z1 x) = length x.
Proof. induction x as [|v x IH]; intros; cbn [biquad length]; [reflexivity|rewrite IH; reflexivity]. Qed.

(** the difference equation with the two delays as initial contributions *)
Lemma biquad_nth s x : forall z0 z1 i, (i < length x)%nat ->
  let y := biquad s z0 z1 x in let n := Z.of_nat i in
  (at_time y n + Cscal (s_a1 s) (at_time y (n - 1)) + Cscal (s_a2 s) (at_time y (n - 2)) =
   Cscal (s_b0 s) (at_time x n) + Cscal (s_b1 s) (at_time x (n - 1)) + Cscal (s_b2 s) (at_time x (n - 2))
   + (if (i =? 0)%nat then z0 else if (i =? 1)%nat then z1 else C0))%C.
Proof.
  assert (A : forall (v : C) l k, at_time (v :: l) (Z.of_nat (S k)) = at_time l (Z.of_nat k)).
  { intros v l k. unfold at_time. destruct (Z.ltb_spec (Z.of_nat (S k)) 0); [lia|]. destruct (Z.ltb_spec (Z.of_nat k) 0); [lia|].
    rewrite !Nat2Z.id. reflexivity. }
  assert (N : forall l k, (k < 0)%Z -> at_time l k = C0).
  { intros l k H. unfold at_time. destruct (Z.ltb_spec k 0); [reflexivity|lia]. }
  assert (Z0 : forall (v : C) l, at_time (v :: l) 0 = v) by reflexivity.
  Local Ltac neg := repeat match goal with N : forall l k, (k < 0)%Z -> _ |- context [at_time ?l ?k] => rewrite (N l k) by lia end.
  induction x as [|v x IH]; intros z0 z1 i Hi; cbn [length] in Hi; [lia|].
  cbn zeta. cbn [biquad]. set (y := (Cscal (s_b0 s) v + z0)%C). set (u0 := (Cscal (s_b1 s) v - Cscal (s_a1 s) y + z1)%C).
  set (u1 := (Cscal (s_b2 s) v - Cscal (s_a2 s) y)%C).
  destruct i as [|i].
  - cbn [Z.of_nat Nat.eqb]. rewrite (N (v :: x) (0 - 1)%Z), (N (v :: x) (0 - 2)%Z), (N (y :: biquad s u0 u1 x) (0 - 1)%Z), (N (y :: biquad s u0 u1 x) (0 - 2)%Z), !Z0 by lia. unfold y. cring.
  - specialize (IH u0 u1 i ltac:(lia)). cbn zeta in IH. rewrite !A.
    replace (Z.of_nat (S i) - 1)%Z with (Z.of_nat i) by lia.
    revert IH. destruct i as [|i].
    + cbn [Z.of_nat Nat.eqb]. replace (Z.of_nat 1 - 2)%Z with (-1)%Z by lia. neg. rewrite !Z0. intros IH.
      set (y0 := at_time (biquad s u0 u1 x) 0) in *. set (x0 := at_time x 0) in *.
      assert (E : y0 = (Cscal (s_b0 s) x0 + u0)%C).
      { transitivity (y0 + Cscal (s_a1 s) C0 + Cscal (s_a2 s) C0)%C; [cring|]. rewrite IH. cring. }
      rewrite E. unfold u0. cring.
    + replace (Z.of_nat (S (S i)) - 2)%Z with (Z.of_nat i) by lia.
      replace (Z.of_nat (S i) - 1)%Z with (Z.of_nat i) by lia.
      destruct i as [|i].
      * rewrite !A. cbn [Nat.eqb]. replace (Z.of_nat 1 - 2)%Z with (-1)%Z by lia. neg. intros IH.
        change (Z.of_nat 0) with 0%Z in *. rewrite !Z0.
        set (y1 := at_time (biquad s u0 u1 x) (Z.of_nat 1)) in *. set (x1 := at_time x (Z.of_nat 1)) in *.
        set (y0 := at_time (biquad s u0 u1 x) 0) in *. set (x0 := at_time x 0) in *.
        assert (E : (y1 + Cscal (s_a1 s) y0)%C = (Cscal (s_b0 s) x1 + Cscal (s_b1 s) x0 + u1)%C).
        { transitivity (y1 + Cscal (s_a1 s) y0 + Cscal (s_a2 s) C0)%C; [cring|]. rewrite IH. cring. }
        rewrite E. unfold u1. cring.
      * intros IH. rewrite !A. replace (Z.of_nat (S (S i)) - 2)%Z with (Z.of_nat i) in IH by lia.
        cbn [Nat.eqb] in *. rewrite IH. reflexivity.
Qed.
Lemma biquad_recursion s x : recursion s x (biquad s C0 C0 x).
Proof.
  split; [apply biquad_length|]. intros i Hi n. pose proof (biquad_nth s x C0 C0 i Hi) as H. cbn zeta in H. fold n in H. rewrite H.
  destruct (i =? 0)%nat; [cring|]. destruct (i =? 1)%nat; cring.
Qed.
Lemma sosfilt_cascade sos : forall x, cascade sos x (sosfilt sos x).
Proof.
  induction sos as [|s sos IH]; intros x; [reflexivity|].
  exists (biquad s C0 C0 x). split; [apply biquad_recursion|]. apply IH.
Qed.
Lemma sosfilt_length sos : forall x, length (sosfilt sos x) = length x.
Proof.
  induction sos as [|s sos IH]; intros x; [reflexivity|]. unfold sosfilt. cbn [fold_left]. change (length (sosfilt sos (biquad s C0 C0 x)) = length x).
  rewrite IH. apply biquad_length.
Qed.

(** linear *)
Lemma biquad_lin s a b x y : forall z0 z1 w0 w1, length x = length y ->
  biquad s (a * z0 + b * w0)%C (a * z1 + b * w1)%C (lin_comb a x b y) = lin_comb a (biquad s z0 z1 x) b (biquad s w0 w1 y).
Proof.
  revert y; induction x as [|v x IH]; intros [|w y] z0 z1 w0 w1 L; try discriminate; [reflexivity|].
  injection L as L. unfold lin_comb. cbn [combine map biquad fst snd].
  apply (f_equal2 cons); [cring|]. etransitivity; [|apply (IH y _ _ _ _ L)]. unfold lin_comb. f_equal; cring.
Qed.
Lemma sosfilt_lin sos a b : forall x y, length x = length y ->
  sosfilt sos (lin_comb a x b y) = lin_comb a (sosfilt sos x) b (sosfilt sos y).
Proof.
  induction sos as [|s sos IH]; intros x y L; [reflexivity|]. unfold sosfilt in *. cbn [fold_left].
  rewrite <- IH by (rewrite !biquad_length; exact L). f_equal.
  transitivity (biquad s (a * C0 + b * C0)%C (a * C0 + b * C0)%C (lin_comb a x b y)); [f_equal; ring|apply biquad_lin, L].
Qed.
(** causal *)
Lemma biquad_firstn s n x : forall z0 z1, biquad s z0 z1 (firstn n x) = firstn n (biquad s z0 z1 x).
Proof.
  revert x; induction n as [|n IH]; intros [|v x] z0 z1; try reflexivity. cbn [firstn biquad]. rewrite IH. reflexivity.
Qed.
Lemma sosfilt_firstn sos n : forall x, sosfilt sos (firstn n x) = firstn n (sosfilt sos x).
Proof.
  induction sos as [|s sos IH]; intros x; [reflexivity|]. unfold sosfilt in *. cbn [fold_left]. rewrite biquad_firstn. apply IH.
Qed.
(** time-invariant *)
Lemma biquad_zeros s k x : biquad s C0 C0 (repeat C0 k ++ x) = repeat C0 k ++ biquad s C0 C0 x.
Proof.
  induction k as [|k IH]; [reflexivity|]. cbn [repeat app biquad].
  replace (Cscal (s_b0 s) C0 + C0)%C with C0 by cring. apply (f_equal2 cons); [reflexivity|].
  rewrite <- IH. f_equal; cring.
Qed.
Lemma sosfilt_zeros sos k : forall x, sosfilt sos (repeat C0 k ++ x) = repeat C0 k ++ sosfilt sos x.
Proof.
  induction sos as [|s sos IH]; intros x; [reflexivity|]. unfold sosfilt in *. cbn [fold_left]. rewrite biquad_zeros. apply IH.
Qed.
(** homogeneous *)
Lemma biquad_scal s a x : forall z0 z1, biquad s (Cscal a z0) (Cscal a z1) (map (Cscal a) x) = map (Cscal a) (biquad s z0 z1 x).
Proof.
  induction x as [|v x IH]; intros; [reflexivity|]. cbn [map biquad]. apply (f_equal2 cons); [cring|]. rewrite <- IH. f_equal; cring.
Qed.
Lemma sosfilt_scal sos a : forall x, sosfilt sos (map (Cscal a) x) = map (Cscal a) (sosfilt sos x).
Proof.
  induction sos as [|s sos IH]; intros x; [reflexivity|]. unfold sosfilt in *. cbn [fold_left]. rewrite <- IH, <- biquad_scal.
  f_equal. f_equal; cring.
Qed.

(** ** scaling of the signal *)
Definition scale (a : R) (X : list (list C)) : list (list C) := map (map (Cscal a)) X.
Lemma Cscal_scal a b z : Cscal a (Cscal b z) = Cscal (a * b) z.
Proof. cring. Qed.

(** ** the drive signal *)
Lemma all_some_map {A} (l : list A) : all_some (map Some l) = Some l.
Proof. induction l as [|a l IH]; [reflexivity|]. cbn [map all_some]. rewrite IH. reflexivity. Qed.
Lemma no_nan_some X : no_nan (map (map Some) X) = Some X.
Proof.
  unfold no_nan. rewrite map_map. rewrite (map_ext _ Some) by (intros; apply all_some_map). apply all_some_map.
Qed.
Lemma amplifier_drive s v : (exists m, 0 < m /\ peak m (concat s) /\ ideal_amplifier_response s v = Ok (map (map Some) (scale (v / m) s))) \/
  (concat s = [] /\ ideal_amplifier_response s v = Err ValueError) \/
  (peak 0 (concat s) /\ exists X, ideal_amplifier_response s v = Ok X /\ no_nan X = None).
Proof.
  destruct (concat s) as [|z l] eqn:E; [right; left; split; [reflexivity|unfold ideal_amplifier_response; rewrite E; reflexivity]|].
  destruct (row_peak_ex (concat s)) as (m & Rm & Pm); [rewrite E; discriminate|]. rewrite E in *.
  assert (0 <= m). { destruct Pm as (W & _). destruct (W z (or_introl eq_refl)) as (W1 & _). pose proof (Rabs_pos (fst z)). lra. }
  destruct (Req_EM_T m 0) as [->|Nm].
  - right; right. split; [exact Pm|]. unfold ideal_amplifier_response. rewrite E, Rm. cbn [bind]. eexists; split; [reflexivity|].
    unfold no_nan. rewrite map_map. clear - E. revert E. induction s as [|r s IH]; intros E; [discriminate|]. cbn [map].
    destruct r as [|x r]; cbn [concat app] in E.
    + cbn [cdiv_row map all_some]. rewrite (IH E). reflexivity.
    + unfold cdiv_row. cbn [map]. destruct (Req_EM_T 0 0); [|congruence]. reflexivity.
  - left. exists m. split; [lra|split; [exact Pm|]]. unfold ideal_amplifier_response. rewrite E, Rm. cbn [bind]. apply (f_equal Ok).
    unfold scale, cdiv_row. rewrite map_map. apply map_ext. intros r. rewrite !map_map. apply map_ext. intros x.
    destruct (Req_EM_T m 0); [congruence|]. cbn [option_map]. rewrite Cscal_scal. reflexivity.
Qed.
Lemma tx_drive des sig fs v q p nr ni out : sim_tx_response des sig fs v q p nr ni = Ok (Some out) ->
  exists s m, sim_DAC_response des sig fs q nr ni = Ok (Some s) /\ 0 < m /\ peak m (concat s) /\
    out = map (map (fun z => modulator_sample (m_bias p) (m_gain p) (m_chirp p) (m_bias_out p) (m_gain_out p) (Cscal (v / m) z))) s.
Proof.
  unfold sim_tx_response. destruct (sim_DAC_response des sig fs q nr ni) as [[s|]|]; [|discriminate..]. cbn [bind].
  destruct (amplifier_drive s v) as [(m & Hm & Pm & E)|[(_ & E)|(_ & X & E & NX)]]; rewrite E; cbn [bind]; [|discriminate|rewrite NX; discriminate].
  rewrite no_nan_some. cbn [option_map]. intros H. exists s, m. split; [reflexivity|split; [exact Hm|split; [exact Pm|]]].
  injection H as <-. unfold modulator_response, scale. rewrite map_map. apply map_ext. intros r. rewrite map_map. reflexivity.
Qed.
