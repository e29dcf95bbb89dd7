(** Properties C123-C124: core/pilotbased_transmitter.py. *)
From Coq Require Import List ZArith Bool Arith Reals Lia Lra.
From Verif Require Import Common.Py Common.Cplx Model.SimTx Spec.ImpairSpec Spec.SimTxS Proofs.SimTxP.
Import ListNotations.
Local Open Scope R_scope.

(** C123.  Full statement: every mode of the result is its row of the frame delayed by its entry of
    modal_delay, distorted and normalised; the frame is left unchanged.  The delays are wrong for
    more than one mode, the rotation of two modes fails and the frame is changed. *)
Theorem C123_normalised : forall frame o dr n out after, frame <> [] -> (0 < n)%nat ->
  (forall r, In r frame -> length r = n) -> draws_fit n dr -> sim_tx frame o dr = Ok (Some out, after) ->
  length out = length frame /\ forall y, In y out -> length y = n /\ sample_mean y = C0 /\ sample_power y = 1.
Proof. exact sim_tx_normalised. Qed.
Print Assumptions C123_normalised.
(** without delays; modes after the first are also normalised before they are distorted *)
Theorem C123_rows_partial : forall frame o dr n out after, (0 < n)%nat -> (forall r, In r frame -> length r = n) -> draws_fit n dr ->
  tx_delay o = None -> sim_tx frame o dr = Ok (Some out, after) ->
  forall l x, nth_error frame l = Some x -> exists u w y,
    (l = 0%nat -> u = x) /\ (l <> 0%nat -> normalised x u) /\
    distorted (or0 (tx_snr o) (fun snr => Rpower 10 (- snr / 20) * sqrt (tx_os o)))
      (or0 (tx_freqoff o) (fun f => f)) (tx_symb_rate o * tx_os o)
      (fun k => nth k (fst (fst (dr l))) 0) (fun k => nth k (snd (fst (dr l))) 0)
      (fun k => or0 (tx_linewidth o) (fun df => sqrt (2 * PI * df / (tx_symb_rate o * tx_os o)) * nth k (snd (dr l)) 0)) u w /\
    normalised w y /\ nth_error out l = Some y.
Proof. exact sim_tx_rows. Qed.
Print Assumptions C123_rows_partial.
Theorem C123_one_mode_delay_partial : forall x os sr d dr rot, ~ constant x -> exists y,
  normalised x y /\ sim_tx [x] (TxOptions os (Some [d]) None sr None None rot) dr = Ok (Some [roll d y], [x]).
Proof. exact sim_tx_one_mode. Qed.
Print Assumptions C123_one_mode_delay_partial.
Theorem C123_wrong_number_of_delays : forall frame o dr ds, frame <> [] -> tx_delay o = Some ds -> length ds <> length frame ->
  sim_tx frame o dr = Err ValueError.
Proof. exact sim_tx_delay_len. Qed.
Print Assumptions C123_wrong_number_of_delays.
(** two equal modes, each to be delayed by one symbol, come back undelayed: every entry rolls the whole array *)
Theorem C123_two_delays_refuted : forall dr, let x := [(1, 0); (-1, 0)] : list C in
  sim_tx [x; x] (TxOptions 1 (Some [1%Z; 1%Z]) None 1 None None None) dr = Ok (Some [x; x], [x; x]) /\
  normalised x x /\ ~ delayed 1 x x.
Proof. exact sim_tx_two_delays. Qed.
Print Assumptions C123_two_delays_refuted.
Theorem C123_rotation_refuted : forall x y o dr, tx_rot o <> None -> tx_delay o = None -> sim_tx [x; y] o dr = Err AttributeError.
Proof. exact sim_tx_rotation. Qed.
Print Assumptions C123_rotation_refuted.
(** without delays the first row of the caller's frame is overwritten by the distorted samples *)
Theorem C123_argument_refuted : forall frame o dr out after, tx_delay o = None -> sim_tx frame o dr = Ok (out, after) ->
  after = match frame with [] => [] | x :: rest => tx_row o (dr 0%nat) x :: rest end.
Proof. exact sim_tx_argument. Qed.
Print Assumptions C123_argument_refuted.

Example C123_case : let x := [(1, 0); (-1, 0)] : list C in ~ constant x /\
  exists after, sim_tx [x] (TxOptions 1 (Some [1%Z]) None 1 None None None) (fun _ => ([], [], [])) = Ok (Some [[(-1, 0); (1, 0)]], after).
Proof.
  intros x. assert (Hc : ~ constant x).
  { intros K. assert (E : (1, 0) = (-1, 0)) by (apply K; unfold x; cbn; auto). assert (W : fst (1, 0) = fst (-1, 0)) by congruence. cbn in W. lra. }
  split; [exact Hc|]. destruct (C123_one_mode_delay_partial x 1 1 1%Z (fun _ => ([], [], [])) None Hc) as (y & [(a & Ha & Hy) [Hm Hp]] & E).
  exists [x]. rewrite E.
  destruct (C123_two_delays_refuted (fun _ => ([], [], []))) as (_ & (_ & Mx & Px) & _). fold x in Mx, Px.
  assert (Ey : y = map (Cscal a) x).
  { rewrite Hy, Mx. apply map_ext. intros [p q]. apply C_eq; unfold Cscal, Csub, C0; cbn [fst snd]; ring. }
  assert (A1 : a = 1).
  { assert (Q : sample_power y = a * a).
    { rewrite Ey. unfold sample_power, x. cbn [map length]. unfold Rsum, Cnorm2, Cscal. cbn [fold_right fst snd INR]. field. }
    rewrite Hp in Q. nra. }
  assert (Er : roll 1 y = [(-1, 0); (1, 0)]).
  { rewrite Ey, A1. unfold x. cbn [map].
    change (roll 1 [Cscal 1 (1, 0); Cscal 1 (-1, 0)]) with [Cscal 1 (-1, 0); Cscal 1 (1, 0)].
    apply (f_equal2 cons); [|apply (f_equal2 cons); [|reflexivity]]; apply C_eq; unfold Cscal; cbn [fst snd]; ring. }
  rewrite Er. reflexivity.
Qed.

(** C124.  Full statement: the three frame generators return a frame.  They never do. *)
Theorem C124_phase_pilots_refuted : forall M npols frame_length pilot_seq_len pilot_ins_ratio,
  gen_dataframe_with_phasepilots M npols frame_length pilot_seq_len pilot_ins_ratio = Err NameError /\
  gen_dataframe_without_phasepilots M npols frame_length pilot_seq_len = Err NameError.
Proof. intros. split; reflexivity. Qed.
Print Assumptions C124_phase_pilots_refuted.
Theorem C124_hybrid_refuted : forall M mod_ratio npols frame_length pilot_seq_len pilot_ins_ratio out,
  gen_dataframe_hybrid M mod_ratio npols frame_length pilot_seq_len pilot_ins_ratio <> Ok out.
Proof. intros. unfold gen_dataframe_hybrid. destruct (negb _); [discriminate|]. destruct (_ =? 0)%Z; discriminate. Qed.
Print Assumptions C124_hybrid_refuted.
Theorem C124_format_count_partial : forall M mod_ratio npols frame_length pilot_seq_len pilot_ins_ratio,
  length M <> length mod_ratio ->
  gen_dataframe_hybrid M mod_ratio npols frame_length pilot_seq_len pilot_ins_ratio = Err ValueError.
Proof. intros M r a b c d H. unfold gen_dataframe_hybrid. destruct (Nat.eqb_spec (length M) (length r)); [contradiction|]. reflexivity. Qed.
Print Assumptions C124_format_count_partial.

Example C124_case : gen_dataframe_hybrid [16%Z; 64%Z] [1%Z; 1%Z] 2 1024 256 32 = Err NameError.
Proof. reflexivity. Qed.
