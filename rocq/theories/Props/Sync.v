(** Properties C12-C19: synchronisation and length adjustment. *)
From Coq Require Import List ZArith Arith Bool Lia Reals Lra.
From Verif Require Import Common.Py Common.Cplx Common.SumX Model.Sync Spec.Seq Proofs.CorrP Proofs.SyncP Proofs.SyncQ.
Import ListNotations.

(** C12.  Full statement: for truncate and extend both results have the same length and the tx part
    is tx repeated periodically and delayed by the offset.  False: extend with an offset that is a
    positive multiple of the length, and truncate / equal lengths ignore the offset. *)
Theorem C12_extend_partial : forall (A : Type) (tx rx : list A) (offset : Z), tx <> [] -> rx <> [] ->
  exists t r, adjust_data_length tx rx Extend offset = Ok (t, r) /\
  (length tx < length rx -> r = rx /\ delayed_repetition tx offset t /\ length rx <= length t /\
     (length t = length rx <-> fits (length tx) (length rx) offset)) /\
  (length rx < length tx -> t = tx /\ delayed_repetition rx offset r /\ length tx <= length r /\
     (length r = length tx <-> fits (length rx) (length tx) offset)) /\
  (length tx = length rx -> t = tx /\ r = rx).
Proof. exact @c12_extend. Qed.
Print Assumptions C12_extend_partial.

Theorem C12_truncate_partial : forall (A : Type) (tx rx : list A) (offset : Z), exists t r,
  adjust_data_length tx rx Truncate offset = Ok (t, r) /\
  length t = Nat.min (length tx) (length rx) /\ length r = Nat.min (length tx) (length rx) /\
  (forall k, k < length t -> nth_error t k = nth_error tx k /\ nth_error r k = nth_error rx k).
Proof. exact @c12_truncate. Qed.
Print Assumptions C12_truncate_partial.

Theorem C12_none_partial : forall (A : Type) (tx rx : list A) (offset : Z), tx <> [] ->
  exists t, adjust_data_length tx rx MethodNone offset = Ok (t, rx) /\
  (length tx < length rx -> delayed_repetition tx offset t /\
     (length t = length rx <->
      offset = 0%Z \/ (0 < offset <= Z.of_nat (length rx) /\ offset mod Z.of_nat (length tx) <> 0)%Z)) /\
  (length rx <= length tx -> t = firstn (length rx) tx).
Proof. exact @c12_none. Qed.
Print Assumptions C12_none_partial.

Example C12_case : adjust_data_length [1; 2; 3] [0; 0; 0; 0; 0; 0; 0; 0] Extend 2
  = Ok ([2; 3; 1; 2; 3; 1; 2; 3], [0; 0; 0; 0; 0; 0; 0; 0]) /\ fits 3 8 2.
Proof. split; [reflexivity|]. unfold fits. cbn. lia. Qed.

(** the offset is the length of tx: two elements too many *)
Theorem C12_multiple_offset_refuted : exists t, adjust_data_length [1; 2] [0; 0; 5] Extend 2 = Ok (t, [0; 0; 5]) /\ length t = 5.
Proof. eexists. split; reflexivity. Qed.
Print Assumptions C12_multiple_offset_refuted.
(** truncation ignores the offset *)
Theorem C12_truncate_offset_refuted : exists t, adjust_data_length [1; 2; 3] [7; 8] Truncate 1 = Ok (t, [7; 8]) /\
  ~ delayed_repetition [1; 2; 3] 1 t.
Proof. eexists. split; [reflexivity|]. intros H. specialize (H 0 ltac:(cbn; lia)). discriminate. Qed.
Print Assumptions C12_truncate_offset_refuted.

(** C13.  The lengths are equal unless the offset found is one that [fits] excludes; the content is
    as stated in all cases, up to the quarter turn that is applied too. *)
Theorem C13_adjust_tx_partial : forall tx rx t r acm, tx <> [] -> rx <> [] ->
  sync_and_adjust tx rx AdjTx = Ok (t, r, acm) ->
  exists offset q, q < 4 /\ r = rx /\
    (delayed_repetition (turned q tx) offset t /\ length rx <= length t /\
     (length t = length rx <-> (length (turned q tx) < length rx -> fits (length (turned q tx)) (length rx) offset))) /\
    (forall d, (Cabs (corr rx tx d) <= Cabs (corr rx tx offset))%R).
Proof. exact c13_tx. Qed.
Print Assumptions C13_adjust_tx_partial.

Theorem C13_adjust_rx_partial : forall tx rx t r acm, tx <> [] -> rx <> [] ->
  sync_and_adjust tx rx AdjRx = Ok (t, r, acm) ->
  exists offset q, q < 4 /\ t = tx /\
    (delayed_repetition (turned q rx) offset r /\ length tx <= length r /\
     (length r = length tx <-> (length (turned q rx) < length tx -> fits (length (turned q rx)) (length tx) offset))) /\
    (forall d, (Cabs (corr tx rx d) <= Cabs (corr tx rx offset))%R).
Proof. exact c13_rx. Qed.
Print Assumptions C13_adjust_rx_partial.

Theorem C13_succeeds : forall tx rx adj d0, tx <> [] -> rx <> [] ->
  (match adj with AdjTx => corr rx tx d0 | AdjRx => corr tx rx d0 end) <> C0 ->
  exists t r acm, sync_and_adjust tx rx adj = Ok (t, r, acm).
Proof. exact c13_ok. Qed.
Print Assumptions C13_succeeds.

(** end to end: a repeated, delayed and quarter-turned copy is reproduced exactly *)
Theorem C13_recovers_periodic : forall tx rx p q, tx <> [] -> all_nonzero tx -> no_self_copy tx -> q < 4 ->
  2 * length tx <= length rx -> periodic_copy tx p q rx ->
  exists acm, sync_and_adjust tx rx AdjTx = Ok (rx, rx, acm).
Proof. exact c13_recovers. Qed.
Print Assumptions C13_recovers_periodic.

Theorem C13_equal_length_refuted : exists t acm,
  sync_and_adjust [C1; C0] [C0; C0; (5, 0)%R] AdjTx = Ok (t, [C0; C0; (5, 0)%R], acm) /\ length t <> 3.
Proof. exact c13_bad. Qed.
Print Assumptions C13_equal_length_refuted.

Example C13_case : exists acm,
  let rx := turned 1 [Ci; C1; C1; Ci; C1; C1; Ci] in sync_and_adjust [C1; C1; Ci] rx AdjTx = Ok (rx, rx, acm).
Proof.
  apply (C13_recovers_periodic [C1; C1; Ci] _ 1 1); [discriminate| | |lia|cbn; lia|].
  - intros s [<-|[<-|[<-|[]]]] H; injection H; intros; lra.
  - intros s u Hs _ H. pose proof (H 0 ltac:(cbn; lia)) as H0. pose proof (H 1 ltac:(cbn; lia)) as H1.
    pose proof (H 2 ltac:(cbn; lia)) as H2. cbn [length] in Hs.
    destruct s as [|[|[|s]]]; [lia| | |lia].
    + change (C1 = (u * C1)%C) in H0. change (Ci = (u * C1)%C) in H1. rewrite <- H1 in H0. injection H0; intros; lra.
    + change (Ci = (u * C1)%C) in H0. change (C1 = (u * C1)%C) in H1. rewrite <- H1 in H0. injection H0; intros; lra.
  - intros k Hk. cbn [turned map length] in Hk. do 7 (destruct k as [|k]; [reflexivity|]). lia.
Qed.

(** C14: first lag of largest |correlation| *)
Theorem C14_first_maximum : forall x y, x <> [] -> y <> [] ->
  exists ix, find_sequence_offset x y
      = Ok (ix, map (fun m => corr x y (Z.of_nat m - (Z.of_nat (length y) - 1))) (seq 0 (length x + length y - 1))) /\
    lag x y ix /\
    (forall d, lag x y d -> (Cabs (corr x y d) <= Cabs (corr x y ix))%R) /\
    (forall d, lag x y d -> (d < ix)%Z -> (Cabs (corr x y d) < Cabs (corr x y ix))%R).
Proof. exact find_sequence_offset_spec. Qed.
Print Assumptions C14_first_maximum.

(** for samples of one modulus this is the position of y *)
Theorem C14_recovers_position : forall x y p u r, x <> [] -> y <> [] ->
  (0 < r)%R -> (forall s, In s x -> Cnorm2 s = r) -> (forall s, In s y -> Cnorm2 s = r) ->
  occurs_at x y p u -> Cnorm2 u = 1%R ->
  (forall q v, Cnorm2 v = 1%R -> occurs_at x y q v -> q = p) ->
  exists ac, find_sequence_offset x y = Ok (p, ac).
Proof. exact c14_modulus. Qed.
Print Assumptions C14_recovers_position.

(** more generally, when no window of x has more energy than y *)
Theorem C14_recovers_position_energy : forall x y p u, x <> [] -> y <> [] -> all_nonzero y ->
  (forall d, lag x y d -> (energy_at x y d <= seq_energy y)%R) ->
  occurs_at x y p u -> Cnorm2 u = 1%R ->
  (forall q v, Cnorm2 v = 1%R -> occurs_at x y q v -> q = p) ->
  exists ac, find_sequence_offset x y = Ok (p, ac).
Proof. exact c14. Qed.
Print Assumptions C14_recovers_position_energy.

Example C14_case : exists ac, find_sequence_offset [C1; Ci; (0, -1)%R; (0, -1)%R] [C1; C1] = Ok (2%Z, ac).
Proof.
  apply (C14_recovers_position _ _ 2 (0, -1)%R 1%R); try discriminate; try lra.
  - intros s [<-|[<-|[<-|[<-|[]]]]]; unfold Cnorm2, C1, Ci; cbn [fst snd]; ring.
  - intros s [<-|[<-|[]]]; unfold Cnorm2, C1; cbn [fst snd]; ring.
  - split; [cbn; lia|]. intros k Hk. cbn in Hk. destruct k as [|[|k]]; [| |lia].
    + change ((0, -1)%R = ((0, -1)%R * C1)%C). cring.
    + change ((0, -1)%R = ((0, -1)%R * C1)%C). cring.
  - unfold Cnorm2. cbn [fst snd]. ring.
  - intros q v _ [[H1 H2] H]. cbn [length] in H2.
    pose proof (H 0 ltac:(cbn; lia)) as A0. pose proof (H 1 ltac:(cbn; lia)) as A1.
    assert (Hq : (q = 0 \/ q = 1 \/ q = 2)%Z) by lia. destruct Hq as [->|[->| ->]]; [| |reflexivity].
    + change (C1 = (v * C1)%C) in A0. change (Ci = (v * C1)%C) in A1. rewrite <- A1 in A0. injection A0; intros; lra.
    + change (Ci = (v * C1)%C) in A0. change ((0, -1)%R = (v * C1)%C) in A1. rewrite <- A1 in A0. injection A0; intros; lra.
Qed.

(** C15 *)
Theorem C15_rotation : forall x y, x <> [] -> y <> [] ->
  ((forall d, corr x y d = C0) -> find_sequence_offset_complex x y = Err UnboundLocalError) /\
  (forall d0, corr x y d0 <> C0 ->
   exists ix ii acm, find_sequence_offset_complex x y = Ok (ix, turned ii y, ii, acm) /\
     ii < 4 /\ lag x y ix /\ (0 < acm)%R /\
     (forall d, (Cabs (corr x y d) <= Cabs (corr x y ix))%R) /\
     (exists d, acm = fst (corr x (turned ii y) d)) /\
     (forall q d, q < 4 -> (fst (corr x (turned q y) d) <= acm)%R)).
Proof. exact c15. Qed.
Print Assumptions C15_rotation.

Theorem C15_empty : forall x y, x = [] \/ y = [] -> find_sequence_offset_complex x y = Err ValueError.
Proof. exact c15_empty. Qed.
Print Assumptions C15_empty.

(** the rotation and the position of a turned copy are recovered *)
Theorem C15_recovers : forall x y p q, x <> [] -> y <> [] -> q < 4 -> all_nonzero y ->
  (forall d, lag x y d -> (energy_at x y d <= seq_energy y)%R) ->
  occurs_at x y p (quarter q) ->
  (forall d v, Cnorm2 v = 1%R -> occurs_at x y d v -> v = quarter q) ->
  exists ix, find_sequence_offset_complex x y = Ok (ix, turned q y, q, seq_energy y) /\ (ix <= p)%Z /\ occurs_at x y ix (quarter q).
Proof. exact c15_recovers. Qed.
Print Assumptions C15_recovers.

Example C15_case : exists ix ii acm, find_sequence_offset_complex [C0; Ci] [C1] = Ok (ix, turned ii [C1], ii, acm) /\ ix = 1%Z /\ ii = 1.
Proof.
  destruct (C15_recovers [C0; Ci] [C1] 1 1) as (ix & E & _ & Ho); try discriminate; try lia.
  - intros s [<-|[]] H. injection H; intros; lra.
  - intros d _. unfold energy_at, seq_energy, energy_at. apply rsum_le. intros k Hk. cbn in Hk. destruct k; [|lia].
    change (ext [C1] (0 + Z.of_nat 0)) with C1.
    assert (K : ext [C0; Ci] (d + Z.of_nat 0) = C0 \/ ext [C0; Ci] (d + Z.of_nat 0) = Ci).
    { unfold ext. destruct (0 <=? d + Z.of_nat 0)%Z; [|now left]. destruct (Z.to_nat (d + Z.of_nat 0)) as [|[|[|n]]]; cbn; auto. }
    destruct K as [-> | ->]; unfold Cnorm2, C0, C1, Ci; cbn [fst snd]; lra.
  - split; [cbn; lia|]. intros k Hk. cbn in Hk. destruct k; [|lia]. change (Ci = (Ci * C1)%C). cring.
  - intros d v Hv [[H1 H2] H]. specialize (H 0 ltac:(cbn; lia)). cbn [length] in H2.
    assert (Hd : (d = 0 \/ d = 1)%Z) by lia. destruct Hd as [-> | ->].
    + change (C0 = (v * C1)%C) in H. replace (v * C1)%C with v in H by cring. rewrite <- H, Cnorm2_0 in Hv. lra.
    + change (Ci = (v * C1)%C) in H. replace (v * C1)%C with v in H by cring. now rewrite <- H.
  - exists ix, 1, (seq_energy [C1]). split; [exact E|]. split; [|reflexivity].
    destruct Ho as [[H1 H2] H]. cbn [length] in H2. specialize (H 0 ltac:(cbn; lia)).
    assert (Hd : (ix = 0 \/ ix = 1)%Z) by lia. destruct Hd as [-> | ->]; [|reflexivity].
    change (C0 = (quarter 1 * C1)%C) in H. apply (f_equal Cnorm2) in H. rewrite Cnorm2_mul, quarter_unit in H.
    unfold Cnorm2, C0, C1 in H. cbn [fst snd] in H. lra.
Qed.

(** C16 *)
Theorem C16_one_to_one : forall tx rx ts rs, signal_sync_and_adjust tx rx false = Ok (ts, rs) ->
  exists modes, length modes = length rx /\ length ts = length rx /\ length rs = length rx /\ NoDup modes /\
    forall j i, nth_error modes j = Some i ->
      exists r t r', nth_error rx j = Some r /\ nth_error ts j = Some t /\ nth_error rs j = Some r' /\
      exists txi acm, nth_error tx i = Some txi /\ sync_and_adjust txi r AdjTx = Ok ((t, r'), acm) /\
        forall i' txi', i' < length tx /\ ~ In i' (firstn j modes) -> nth_error tx i' = Some txi' ->
          exists p' acm', sync_and_adjust txi' r AdjTx = Ok (p', acm') /\ (acm' <= acm)%R.
Proof. exact c16. Qed.
Print Assumptions C16_one_to_one.

Theorem C16_too_many_modes : forall tx rx, length tx < length rx -> exists e, signal_sync_and_adjust tx rx false = Err e.
Proof. exact c16_fails. Qed.
Print Assumptions C16_too_many_modes.

(** a received mode with non-zero correlation with every transmitted mode is paired *)
Theorem C16_succeeds : forall tx rx, length rx <= length tx ->
  (forall t r, In t tx -> In r rx -> t <> [] /\ r <> [] /\ exists d, corr r t d <> C0) ->
  exists ts rs, signal_sync_and_adjust tx rx false = Ok (ts, rs).
Proof. exact c16_ok. Qed.
Print Assumptions C16_succeeds.

Example C16_case : exists ts rs, signal_sync_and_adjust [[C1; Ci]; [C1; C1]] [[C1; C1; C1]; [Ci; C1]] false = Ok (ts, rs) /\ length ts = 2.
Proof.
  destruct (C16_succeeds [[C1; Ci]; [C1; C1]] [[C1; C1; C1]; [Ci; C1]]) as (ts & rs & E).
  - cbn; lia.
  - intros t r Ht Hr. split; [destruct Ht as [<-|[<-|[]]]; discriminate|]. split; [destruct Hr as [<-|[<-|[]]]; discriminate|].
    exists (-1)%Z. destruct Ht as [<-|[<-|[]]], Hr as [<-|[<-|[]]]; unfold corr; cbn [length];
      rewrite !csum_S, csum_0; cbn; intros H; injection H; intros; lra.
  - exists ts, rs. split; [exact E|]. destruct (C16_one_to_one _ _ _ _ E) as (m & _ & H & _). exact H.
Qed.

(** C17: false when there are more received modes than transmitted ones, see below *)
Theorem C17_synced_partial : forall tx rx nt nr, 0 < nt -> rect tx nt -> rect rx nr -> length rx <= length tx ->
  exists ts, signal_sync_and_adjust tx rx true = Ok (ts, rx) /\ length ts = length rx /\
    forall m t, nth_error tx m = Some t -> m < length rx ->
      exists t', nth_error ts m = Some t' /\ length t' = nr /\ forall k, k < nr -> nth_error t' k = nth_error t (k mod nt).
Proof. exact (@c17 C). Qed.
Print Assumptions C17_synced_partial.

Theorem C17_extra_modes_refuted : forall t r0 r1 : list C, t <> [] -> length r0 = length r1 ->
  exists ts, signal_sync_and_adjust [t] [r0; r1] true = Ok (ts, [r0]).
Proof. exact c17_extra. Qed.
Print Assumptions C17_extra_modes_refuted.

Example C17_case : signal_sync_and_adjust [[C1; Ci]; [Ci; C0]] [[C0; C0; C1]] true = Ok ([[C1; Ci; C1]], [[C0; C0; C1]]).
Proof. reflexivity. Qed.

(** C18.  One byte per element (bool arrays); [window] is empty beyond the end of rx, in which case
    the statement about the window is void: see the refutation. *)
Section C18.
Context {B : Type} (eqb : B -> B -> bool).

Theorem C18_rx2tx_partial : (forall a b, eqb a b = true <-> a = b) ->
  forall (A : Type) (enc : A -> list B), (forall a, length (enc a) = 1) -> (forall a b, enc a = enc b -> a = b) ->
  forall (tx rx : list A) n imax off out, n < length tx ->
  sync_rx2tx eqb 1 enc tx rx n imax = Ok (off, out) ->
  exists t idx, t < imax /\ off = (Z.of_nat idx - Z.of_nat (t * n))%Z /\ length out = length rx /\
    idx + length (window rx (t * n) n) <= length tx /\
    (forall k, k < length (window rx (t * n) n) -> nth_error out ((idx + k) mod length rx) = nth_error tx (idx + k)) /\
    (forall t' j, t' < t -> ~ appears (window rx (t' * n) n) tx j).
Proof. intros H A enc H1 H2. exact (c18_rx eqb H enc H1 H2). Qed.

Theorem C18_tx2rx_partial : (forall a b, eqb a b = true <-> a = b) ->
  forall (A : Type) (enc : A -> list B), (forall a, length (enc a) = 1) -> (forall a b, enc a = enc b -> a = b) ->
  forall (tx rx : list A) n imax off out, n < length tx ->
  sync_tx2rx eqb 1 enc tx rx n imax = Ok (off, out) ->
  exists t idx, t < imax /\ off = (Z.of_nat idx - Z.of_nat (t * n))%Z /\ length out = length tx /\
    idx + length (window rx (t * n) n) <= length tx /\
    (forall k, k < length (window rx (t * n) n) -> nth_error out ((t * n + k) mod length tx) = nth_error rx (t * n + k)) /\
    (forall t' j, t' < t -> ~ appears (window rx (t' * n) n) tx j).
Proof. intros H A enc H1 H2. exact (c18_tx eqb H enc H1 H2). Qed.

(** the error is raised exactly if none of the tried windows occurs; it is a DataSyncError *)
Theorem C18_error_partial : (forall a b, eqb a b = true <-> a = b) ->
  forall (A : Type) (enc : A -> list B), (forall a, length (enc a) = 1) -> (forall a b, enc a = enc b -> a = b) ->
  forall (tx rx : list A) n imax e, n < length tx ->
  (sync_rx2tx eqb 1 enc tx rx n imax = Err e <->
     e = DataSyncError /\ forall t j, t < imax -> ~ appears (window rx (t * n) n) tx j) /\
  (sync_tx2rx eqb 1 enc tx rx n imax = Err e <->
     e = DataSyncError /\ forall t j, t < imax -> ~ appears (window rx (t * n) n) tx j).
Proof. intros H A enc H1 H2. exact (c18_err eqb H enc H1 H2). Qed.
End C18.
Print Assumptions C18_rx2tx_partial.
Print Assumptions C18_tx2rx_partial.
Print Assumptions C18_error_partial.

(** no element of rx occurs in tx, yet the second, empty window "matches" *)
Theorem C18_empty_window_refuted :
  sync_rx2tx Bool.eqb 1 (fun b => [b]) [false; false; false] [true] 1 2 = Ok ((-1)%Z, [true]) /\
  sync_tx2rx Bool.eqb 1 (fun b => [b]) [false; false; false] [true] 1 2 = Ok ((-1)%Z, [false; false; false]).
Proof. split; reflexivity. Qed.
Print Assumptions C18_empty_window_refuted.

Example C18_case : sync_rx2tx Bool.eqb 1 (fun b => [b]) [true; false; false; true; true; false] [false; true; true; false] 3 4
  = Ok (2%Z, [true; false; false; true]).
Proof. reflexivity. Qed.

(** C19: exact for one byte per element; in general an occurrence is never missed, but the index
    returned may precede it *)
Section C19.
Context {B : Type} (eqb : B -> B -> bool).
Theorem C19_byte_elements_partial : (forall a b, eqb a b = true <-> a = b) ->
  forall (A : Type) (enc : A -> list B), (forall a, length (enc a) = 1) -> (forall a b, enc a = enc b -> a = b) ->
  forall sq data : list A, length sq < length data ->
  (forall i, find_offset eqb 1 enc sq data = Ok i <-> appears sq data i /\ forall j, j < i -> ~ appears sq data j) /\
  (forall e, find_offset eqb 1 enc sq data = Err e <-> e = ValueError /\ forall i, ~ appears sq data i).
Proof. intros H A enc H1 H2 sq data. exact (find_offset_byte eqb H 1 enc Nat.lt_0_1 H1 H2 sq data eq_refl). Qed.

Theorem C19_never_missed_partial : (forall a b, eqb a b = true <-> a = b) ->
  forall (A : Type) (w : nat) (enc : A -> list B), 0 < w -> (forall a, length (enc a) = w) -> (forall a b, enc a = enc b -> a = b) ->
  forall sq data : list A, length sq < length data ->
  (forall i, appears sq data i -> exists j, find_offset eqb w enc sq data = Ok j /\ j <= i) /\
  (forall e, find_offset eqb w enc sq data = Err e -> e = ValueError /\ forall i, ~ appears sq data i).
Proof. intros H A w enc H0 H1 H2. exact (find_offset_general eqb H w enc H0 H1 H2). Qed.
End C19.
Print Assumptions C19_byte_elements_partial.
Print Assumptions C19_never_missed_partial.

(** two-byte elements, little endian: 256 "occurs" across the boundary of 0 and 1 *)
Theorem C19_misaligned_refuted : 
  let enc := fun a : nat => [a mod 256; a / 256] in
  find_offset Nat.eqb 2 enc [256] [0; 1; 256] = Ok 0 /\ ~ appears [256] [0; 1; 256] 0 /\
  find_offset Nat.eqb 2 enc [256] [1; 1; 1] = Ok 0 /\ (forall i, ~ appears [256] [1; 1; 1] i).
Proof. exact c19_bad. Qed.
Print Assumptions C19_misaligned_refuted.

Example C19_case : find_offset Nat.eqb 1 (fun a : nat => [a]) [3; 1] [1; 3; 3; 1; 3; 1] = Ok 2.
Proof. reflexivity. Qed.
