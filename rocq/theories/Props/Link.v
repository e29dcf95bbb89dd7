(** Property C142: a signal that arrives undisturbed is evaluated without errors, without prior synchronisation. *)
From Coq Require Import List ZArith NArith Arith Bool Reals Lia Lra.
From Verif Require Import Common.Py Common.Cplx Common.SumX Model.Constellation Model.Sync Model.Quality Spec.Seq Spec.Metrics Spec.Link Proofs.LinkP.
Import ListNotations.
Local Open Scope R_scope.

(** C142.  Full statement: if every received mode is a different transmitted mode, repeated, delayed and turned by
    quarter turns, then sync_and_adjust finds modes, delays and turns, and SER, BER and EVM are zero for every QAM and
    PSK format.  False for formats not kept by a quarter turn: SER is 1 for BPSK turned by a quarter. *)
Theorem C142_sync : forall tx rx modes n e, (0 < n)%nat -> rect tx n -> Forall all_nonzero tx -> Forall no_self_copy tx -> Forall (fun t => seq_energy t = e) tx ->
  NoDup modes -> Forall2 (fun i r => exists p q, arrives tx i p q r) modes rx -> signal_sync_and_adjust tx rx false = Ok (rx, rx).
Proof. exact link_sync. Qed.
Print Assumptions C142_sync.
Theorem C142_no_errors_partial : forall k mp tx rx modes n N e, (k <= 16)%nat ->
  (qam_mapping k = Ok mp /\ (Nat.even k = true /\ (2 <= k)%nat \/ Nat.odd k = true /\ (5 <= k)%nat)) \/ (psk_mapping k = Ok mp /\ (2 <= k)%nat) ->
  (0 < n)%nat -> rect tx n -> rect rx N -> over (coded_symbols mp) tx -> Forall all_nonzero tx -> Forall no_self_copy tx -> Forall (fun t => seq_energy t = e) tx ->
  NoDup modes -> Forall2 (fun i r => exists p q, arrives tx i p q r) modes rx ->
  cal_ser mp tx rx false = Ok (repeat (Some 0) (length rx)) /\ cal_ber mp tx rx false = Ok (repeat (Some 0) (length rx)) /\
  cal_evm mp tx rx false false = Ok (repeat (Some 0) (length rx)).
Proof. exact link_no_errors. Qed.
Print Assumptions C142_no_errors_partial.
Theorem C142_alphabet_turns : forall k mp,
  (qam_mapping k = Ok mp /\ (Nat.even k = true /\ (2 <= k)%nat \/ Nat.odd k = true /\ (5 <= k)%nat)) \/ (psk_mapping k = Ok mp /\ (2 <= k)%nat) ->
  forall q s, In s (coded_symbols mp) -> In (quarter q * s)%C (coded_symbols mp).
Proof. exact alphabet_turn. Qed.
Print Assumptions C142_alphabet_turns.
Theorem C142_bpsk_refuted : forall mp tx rx modes n N e, qam_mapping 1 = Ok mp -> (0 < n)%nat -> rect tx n -> rect rx N -> over (coded_symbols mp) tx ->
  Forall no_self_copy tx -> Forall (fun t => seq_energy t = e) tx -> NoDup modes ->
  Forall2 (fun i r => exists p q, (q = 1 \/ q = 3)%nat /\ arrives tx i p q r) modes rx ->
  cal_ser mp tx rx false = Ok (repeat (Some 1) (length rx)) /\ cal_ber mp tx rx false = Ok (repeat (Some 0) (length rx)).
Proof. exact link_bpsk. Qed.
Print Assumptions C142_bpsk_refuted.
(** two modes received in exchanged order, one of them turned by a quarter, the other delayed *)
Example C142_ex :
  let a := (1, 0) in let b := (0, 1) in let c := (-1, 0) in
  signal_sync_and_adjust [[a; a; b]; [a; c; a]] [[b; (0, -1); b; b; (0, -1); b]; [b; a; a; b; a; a]] false =
  Ok ([[b; (0, -1); b; b; (0, -1); b]; [b; a; a; b; a; a]], [[b; (0, -1); b; b; (0, -1); b]; [b; a; a; b; a; a]]).
Proof. exact link_ex. Qed.
