(** Property C118: carrier phase estimation from periodic pilots. *)
From Coq Require Import List Arith Bool Lia Reals Lra.
From Verif Require Import Common.Py Common.Cplx Common.Angle Common.SumX Model.PilotCpe Spec.Seq Spec.Equal Spec.Frames Spec.PhaseSpec Spec.CpeS Proofs.CpeQ Proofs.CpeR.
Import ListNotations.
Local Open Scope R_scope.

(** the returned symbols are the transmitted ones turned by the difference of the true phase and the interpolated pilot phase *)
Theorem C118_trace_partial : forall tx rec refs L nref bl N u mb ph, let B := used_blocks L nref bl u mb in let n := (B / u)%nat in
  let h := ((odd_up N - 1) / 2)%nat in let d := (bl * u)%nat in
  (1 <= bl)%nat -> (1 <= u)%nat -> (B mod u = 0)%nat -> (u < B)%nat -> (N < n)%nat -> shape tx 2 L -> shape refs 2 nref ->
  block_pilots tx refs bl u n -> rotated_by ph tx rec ->
  (forall k q, (k < 2)%nat -> (S q < n)%nat -> Rabs (ph k (S q * d)%nat - ph k (q * d)%nat) < PI) ->
  exists out tr, pilot_based_cpe rec refs bl N u mb false = Ok (out, tr) /\ length tr = 2%nat /\
    rotated_by (fun k t => ph k t - cell 0 tr k t) (map (firstn (B * bl)) tx) out /\
    forall k, (k < 2)%nat -> exists c, turns c /\ forall t, (t < B * bl)%nat ->
      interpolates (fun q => (q * d)%nat) (fun q => edge_mean (fun i => ph k (i * d)%nat) n h q + c) 0 (n - 1) t (cell 0 tr k t).
Proof. exact cpe_recover. Qed.
Print Assumptions C118_trace_partial.
(** a constant phase per polarisation is removed exactly *)
Theorem C118_constant_partial : forall tx rec refs L nref bl N u mb ph theta, let B := used_blocks L nref bl u mb in let n := (B / u)%nat in
  (1 <= bl)%nat -> (1 <= u)%nat -> (B mod u = 0)%nat -> (u < B)%nat -> (N < n)%nat -> shape tx 2 L -> shape refs 2 nref ->
  block_pilots tx refs bl u n -> rotated_by ph tx rec -> (forall k t, ph k t = theta k) ->
  exists tr, pilot_based_cpe rec refs bl N u mb false = Ok (map (firstn (B * bl)) tx, tr).
Proof.
  intros tx rec refs L nref bl N u mb ph theta B n H1 H2 H3 H4 H5 H6 H7 H8 H9 H10. apply (cpe_const tx rec refs L nref bl N u mb ph H1 H2 H3 H4 H5 H6 H7 H8 H9) with (theta := theta); [|exact H10].
  intros k q _ _. rewrite !H10, Rminus_diag_eq, Rabs_R0 by reflexivity. exact PI_RGT_0.
Qed.
Print Assumptions C118_constant_partial.
(** a linear phase is removed exactly up to the last averaged pilot; after it the phase is held *)
Theorem C118_linear_partial : forall tx rec refs L nref bl N u mb ph a b, let B := used_blocks L nref bl u mb in let n := (B / u)%nat in
  let h := ((odd_up N - 1) / 2)%nat in let d := (bl * u)%nat in
  (1 <= bl)%nat -> (1 <= u)%nat -> (B mod u = 0)%nat -> (u < B)%nat -> (N < n)%nat -> shape tx 2 L -> shape refs 2 nref ->
  block_pilots tx refs bl u n -> rotated_by ph tx rec -> (forall k t, ph k t = a k + b k * INR t) -> (forall k, Rabs (b k * INR d) < PI) ->
  exists out tr, pilot_based_cpe rec refs bl N u mb false = Ok (out, tr) /\ length out = 2%nat /\
    forall k row, nth_error tx k = Some row -> exists row', nth_error out k = Some row' /\ length row' = (B * bl)%nat /\
      (forall t, (t <= (n - 1 - h) * d)%nat -> nth_error row' t = nth_error row t) /\
      (forall t s, ((n - 1 - h) * d <= t)%nat -> (t < B * bl)%nat -> nth_error row t = Some s ->
         nth_error row' t = Some (s * Cexpi (b k * (INR t - INR ((n - 1 - h) * d))))%C).
Proof.
  intros tx rec refs L nref bl N u mb ph a b B n h d H1 H2 H3 H4 H5 H6 H7 H8 H9 H10 H11. apply (cpe_line tx rec refs L nref bl N u mb ph H1 H2 H3 H4 H5 H6 H7 H8 H9) with (a := a); [|exact H10].
  intros k q _ _. fold d. rewrite !H10. replace (S q * d)%nat with (d + q * d)%nat by lia. rewrite plus_INR. replace (_ - _) with (b k * INR d) by ring. apply H11.
Qed.
Print Assumptions C118_linear_partial.
(** removing the pilots drops the first symbol of every block and nothing else *)
Theorem C118_removal_partial : forall rec refs L nref bl N u mb, (1 <= bl)%nat -> (1 <= u)%nat -> rec <> [] -> rect rec L -> refs <> [] -> rect refs nref ->
  match pilot_based_cpe rec refs bl N u mb false with
  | Ok (full, tr) => exists out, pilot_based_cpe rec refs bl N u mb true = Ok (out, tr) /\ Forall2 (data_of bl (used_blocks L nref bl u mb)) full out
  | Err e => pilot_based_cpe rec refs bl N u mb true = Err e
  end.
Proof. exact cpe_remove. Qed.
Print Assumptions C118_removal_partial.
(** one used block, or no more used pilots than averages: an error *)
Theorem C118_too_few_partial : forall rec refs L nref bl N u mb remove, (1 <= bl)%nat -> (1 <= u)%nat -> rec <> [] -> rect rec L -> refs <> [] -> rect refs nref ->
  (used_blocks L nref bl u mb <= u \/ strided (used_blocks L nref bl u mb) u <= N)%nat -> pilot_based_cpe rec refs bl N u mb remove = Err ValueError.
Proof. exact cpe_few. Qed.
Print Assumptions C118_too_few_partial.
(** any number of polarisations other than two raises *)
Theorem C118_polarisations_refuted : forall rec refs L nref bl N u mb remove, (1 <= bl)%nat -> (1 <= u)%nat -> rec <> [] -> rect rec L -> refs <> [] -> rect refs nref ->
  length refs = length rec -> length rec <> 2%nat -> pilot_based_cpe rec refs bl N u mb remove = Err ValueError.
Proof. exact cpe_one_row. Qed.
Print Assumptions C118_polarisations_refuted.
(** too few references, not a multiple of the ratio, are not rounded down: no result *)
Theorem C118_references_refuted : forall rec refs L nref bl N u mb remove r, (1 <= bl)%nat -> (1 <= u)%nat -> rec <> [] -> rect rec L -> refs <> [] -> rect refs nref ->
  (nref < u * (block_limit L bl mb / u))%nat -> (nref mod u <> 0)%nat -> pilot_based_cpe rec refs bl N u mb remove <> Ok r.
Proof.
  intros rec refs L nref bl N u mb remove r H1 H2 H3 H4 H5 H6 H7 H8 H9. apply (cpe_multiple rec refs L nref bl N u mb remove r H1 H2 H3 H4 H5 H6) in H9.
  unfold used_blocks in H9. rewrite Nat.min_r in H9 by lia. contradiction.
Qed.
Print Assumptions C118_references_refuted.
(** the second version of the function never gets past its first lines *)
Theorem C118_second_refuted : forall rec refs N u, pilot_based_cpe2 rec refs N u = Err UnboundLocalError.
Proof. reflexivity. Qed.
Print Assumptions C118_second_refuted.
(** three blocks of two symbols, a quarter turn on the second polarisation *)
Example C118_case : exists tr,
  pilot_based_cpe [[C1; Ci; C1; C1; C1; Ci]; map (Cmul Ci) [Ci; C1; Ci; Ci; Ci; C1]] [[C1; C1; C1]; [Ci; Ci; Ci]] 2 2 1 None false
    = Ok ([[C1; Ci; C1; C1; C1; Ci]; [Ci; C1; Ci; Ci; Ci; C1]], tr).
Proof.
  apply (C118_constant_partial [[C1; Ci; C1; C1; C1; Ci]; [Ci; C1; Ci; Ci; Ci; C1]] _ [[C1; C1; C1]; [Ci; Ci; Ci]] 6 3 2 2 1 None
    (fun k _ => match k with O => 0 | _ => PI / 2 end) (fun k => match k with O => 0 | _ => PI / 2 end)); try (vm_compute; lia); try reflexivity.
  - split; [reflexivity|repeat constructor].
  - split; [reflexivity|repeat constructor].
  - change (used_blocks 6 3 2 1 None / 1)%nat with 3%nat. intros k row prow q Hr Hp Hq.
    assert (C1 <> C0) by (intros X; apply (f_equal fst) in X; cbn in X; lra). assert (Ci <> C0) by (intros X; apply (f_equal snd) in X; cbn in X; lra).
    destruct k as [|[|k]]; cbn in Hr, Hp; [| |destruct k; discriminate].
    + assert (row = [C1; Ci; C1; C1; C1; Ci]) by congruence. assert (prow = [C1; C1; C1]) by congruence. subst. exists C1, 1. destruct q as [|[|[|q]]]; [| | |lia];
        (split; [reflexivity|]; split; [assumption|]; split; [lra|]; cbn; f_equal; cring).
    + assert (row = [Ci; C1; Ci; Ci; Ci; C1]) by congruence. assert (prow = [Ci; Ci; Ci]) by congruence. subst. exists Ci, 1. destruct q as [|[|[|q]]]; [| | |lia];
        (split; [reflexivity|]; split; [assumption|]; split; [lra|]; cbn; f_equal; cring).
  - split; [reflexivity|]. intros k row Hk. destruct k as [|[|k]]; [| |destruct k; discriminate].
    + eexists. split; [reflexivity|]. cbn in Hk. assert (row = [C1; Ci; C1; C1; C1; Ci]) by congruence. subst row. split; [reflexivity|]. intros t s Hs. rewrite Hs, Cexpi_0. f_equal. cring.
    + eexists. split; [reflexivity|]. cbn in Hk. assert (row = [Ci; C1; Ci; Ci; Ci; C1]) by congruence. subst row. split; [apply map_length|]. intros t s Hs.
      rewrite (map_nth_error (Cmul Ci) t _ Hs). f_equal. unfold Cexpi. rewrite cos_PI2, sin_PI2. cring.
Qed.
