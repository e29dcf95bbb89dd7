(** Property C145: the blind phase search in blocks. *)
From Coq Require Import String List Arith ZArith Lia Reals Lra.
From Verif Require Import Common.Py Common.ListX Common.Cplx Common.SumX Common.Angle Model.Pilots Model.Phase Model.PhaseAf
  Spec.Seq Spec.Equal Spec.PhaseSpec Proofs.PhaseP Proofs.PhaseAfP.
Import ListNotations.
Local Open Scope R_scope.

(** C145: B samples fit into a block.  If all samples fit or B > N and the rest of the samples is not exactly N, the
    search finds the test angle of least cost of the window around every sample, no matter how the blocks are cut. *)
Theorem C145_index_partial : forall NMAX B E ta M symbols N c, angles_for ta (length E) M -> decision_costs E ta M symbols c ->
  (1 <= M)%nat -> (1 <= N)%nat -> (2 * N < length E)%nat ->
  Z.of_nat B = (NMAX / Z.of_nat M / Z.of_nat (length symbols) / 16)%Z ->
  (length E <= B + N \/ (N < B /\ length E mod B <> N))%nat ->
  exists idx, bps_idx_af NMAX E ta symbols N = Ok idx /\ length idx = length E /\
    (forall m, (m < length E)%nat -> ~ interior (length E) N m -> nth_error idx m = Some 0%nat) /\
    (forall m, interior (length E) N m -> exists k, nth_error idx m = Some k /\ first_min (window_cost c N m) M k).
Proof. exact af_index_spec. Qed.
Print Assumptions C145_index_partial.
(** the result is that of the Python search *)
Theorem C145_python_partial : forall NMAX B E ta M symbols N, angles_for ta (length E) M -> symbols <> [] ->
  (1 <= M)%nat -> (1 <= N)%nat -> (2 * N < length E)%nat ->
  Z.of_nat B = (NMAX / Z.of_nat M / Z.of_nat (length symbols) / 16)%Z ->
  (length E <= B + N \/ (N < B /\ length E mod B <> N))%nat ->
  bps_idx_af NMAX E ta symbols N = bps_idx_py E ta symbols N.
Proof. exact af_python. Qed.
Print Assumptions C145_python_partial.
Theorem C145_bps_partial : forall NMAX B E M symbols N, symbols <> [] -> (1 <= M)%nat -> (1 <= N)%nat ->
  Z.of_nat B = (NMAX / Z.of_nat M / Z.of_nat (length symbols) / 16)%Z ->
  (forall row, In row E -> 2 * N < length row /\ (length row <= B + N \/ (N < B /\ length row mod B <> N)))%nat ->
  core_bps_af NMAX E M symbols N = core_bps E M symbols N "py".
Proof. exact af_bps. Qed.
Print Assumptions C145_bps_partial.
(** without room for one sample in a block, long signals are not searched *)
Theorem C145_small_refuted : exists NMAX E ta symbols N, angles_for ta (length E) 1 /\ symbols <> [] /\ (0 < NMAX)%Z /\
  bps_idx_af NMAX E ta symbols N = Err ZeroDivisionError /\ exists idx, bps_idx_py E ta symbols N = Ok idx.
Proof. exact af_small. Qed.
Print Assumptions C145_small_refuted.
(** nine samples in blocks of three: the second test angle fits everywhere *)
Example C145_ex : bps_idx_af 96 (repeat C1 9) [[PI; 0]] [C1] 1 = Ok [0; 1; 1; 1; 1; 1; 1; 1; 0]%nat.
Proof.
  destruct (C145_index_partial 96 3 (repeat C1 9) [[PI; 0]] 2 [C1] 1 (fun _ k => match k with O => 4 | _ => 0 end))
    as (idx & -> & Hl & Ho & Hi).
  - left. split; [reflexivity|]. repeat constructor.
  - intros t k Ht Hk. cbn in Ht.
    assert (Hn : nth t (repeat C1 9) C0 = C1) by (do 9 (destruct t; [reflexivity|]); lia).
    rewrite Hn. unfold test_angle, cell. cbn [length Nat.eqb nth].
    destruct k as [|[|k]]; [| |lia]; cbn [nth]; split; try (exists C1; split; [left; reflexivity|]); try (intros s [<-|[]]);
      unfold Cexpi, C1, Cmul, Csub, Cadd, Copp, Cnorm2; cbn [fst snd]; rewrite ?cos_PI, ?sin_PI, ?cos_0, ?sin_0; lra.
  - lia.
  - lia.
  - cbn. lia.
  - vm_compute. reflexivity.
  - right. cbn. lia.
  - f_equal. cbn in Hl.
    assert (H1 : forall m, (1 <= m < 8)%nat -> nth_error idx m = Some 1%nat).
    { intros m Hm. destruct (Hi m) as (k & Hk & HkM & Hmin & Hf); [unfold interior; cbn; lia|]. rewrite Hk. f_equal.
      destruct k as [|[|k]]; [|reflexivity|lia]. specialize (Hmin 1%nat ltac:(lia)). unfold window_cost in Hmin.
      cbn [Nat.mul Nat.add] in Hmin. rewrite !rsum_S, !rsum_0 in Hmin. lra. }
    assert (H0 : nth_error idx 0 = Some 0%nat) by (apply Ho; [cbn; lia|unfold interior; lia]).
    assert (H8 : nth_error idx 8 = Some 0%nat) by (apply Ho; [cbn; lia|unfold interior; cbn; lia]).
    apply nth_error_ext_lt; [exact Hl|]. intros i Hi'. rewrite Hl in Hi'.
    destruct i as [|i]; [exact H0|]. do 7 (destruct i as [|i]; [rewrite H1 by lia; reflexivity|]).
    destruct i as [|i]; [exact H8|lia].
Qed.
