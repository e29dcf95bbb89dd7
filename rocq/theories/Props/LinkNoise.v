(** Property C143: bounded disturbance causes no errors, without prior synchronisation. *)
From Coq Require Import List ZArith NArith Arith Bool Reals Lia Lra.
From Verif Require Import Common.Py Common.Cplx Common.SumX Model.Constellation Model.Sync Model.Quality Spec.Geometry Spec.Seq Spec.Metrics Spec.Link Proofs.LinkNoiseP.
Import ListNotations.
Local Open Scope R_scope.

(** C143.  [clean] consists of different transmitted modes, repeated, delayed and turned; its correlation with the
    transmitted modes is at most rho away from the right position; every sample is received within delta of it.  With
    rho + 2 delta sum|t| below the energy of the modes the synchronisation finds [clean] for the received signal. *)
Theorem C143_sync : forall tx rx clean modes n e B rho delta, (0 < n)%nat -> rect tx n -> Forall all_nonzero tx ->
  Forall (fun t => seq_energy t = e /\ abs_sum t <= B) tx ->
  0 <= rho -> 0 <= delta -> rho + 2 * (delta * B) < e -> NoDup modes -> Forall2 (fun i c => exists p q, arrives_apart tx i p q rho c) modes clean -> close delta rx clean ->
  signal_sync_and_adjust tx rx false = Ok (clean, rx).
Proof. exact noisy_link. Qed.
Print Assumptions C143_sync.
(** Below half the symbol distance there are no symbol and no bit errors, and the EVM is at most delta. *)
Theorem C143_no_errors : forall k mp tx rx clean modes n N e B rho delta d, (k <= 16)%nat ->
  (qam_mapping k = Ok mp /\ (Nat.even k = true /\ (2 <= k)%nat \/ Nat.odd k = true /\ (5 <= k)%nat)) \/ (psk_mapping k = Ok mp /\ (2 <= k)%nat) ->
  (0 < n)%nat -> rect tx n -> (0 < N)%nat -> rect rx N -> over (coded_symbols mp) tx -> Forall all_nonzero tx -> Forall (fun t => seq_energy t = e /\ abs_sum t <= B) tx ->
  0 <= rho -> 0 <= delta -> rho + 2 * (delta * B) < e -> minimum_distance (coded_symbols mp) d -> delta < d / 2 ->
  NoDup modes -> Forall2 (fun i c => exists p q, arrives_apart tx i p q rho c) modes clean -> close delta rx clean ->
  cal_ser mp tx rx false = Ok (repeat (Some 0) (length rx)) /\ cal_ber mp tx rx false = Ok (repeat (Some 0) (length rx)) /\
  exists evm, cal_evm mp tx rx false false = Ok (map Some evm) /\ length evm = length rx /\ Forall (fun v => 0 <= v <= delta) evm.
Proof. exact noisy_no_errors. Qed.
Print Assumptions C143_no_errors.
(** two periods of three symbols with two disturbed samples: rho = 2, energy 3, delta = 1/10 *)
Example C143_ex : let t := [(1, 0); (1, 0); (0, 1)] in
  signal_sync_and_adjust [t] [[(1, 1 / 10); (1, 0); (0, 1); (9 / 10, 0); (1, 0); (0, 1)]] false =
  Ok ([t ++ t], [[(1, 1 / 10); (1, 0); (0, 1); (9 / 10, 0); (1, 0); (0, 1)]]).
Proof. exact noisy_ex. Qed.
