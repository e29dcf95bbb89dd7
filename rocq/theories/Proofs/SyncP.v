From Coq Require Import List ZArith Bool Lia Reals Lra Arith ZifyBool ZifyNat.
From Verif Require Import Common.Py Common.ListX Common.Cplx Common.SumX Model.Decision Model.Sync Spec.Seq
  Proofs.DecisionP Proofs.AdjustP Proofs.CorrP.
Import ListNotations.

(** ** C12 *)
Lemma fits_ok L n offset : extend_ok (Z.of_nat L) (Z.of_nat n) offset = true <-> fits L n offset.
Proof. unfold extend_ok, fits. lia. Qed.

Lemma c12_extend {A} (tx rx : list A) offset : tx <> [] -> rx <> [] ->
  exists t r, adjust_data_length tx rx Extend offset = Ok (t, r) /\
  (length tx < length rx -> r = rx /\ delayed_repetition tx offset t /\ length rx <= length t /\
     (length t = length rx <-> fits (length tx) (length rx) offset)) /\
  (length rx < length tx -> t = tx /\ delayed_repetition rx offset r /\ length tx <= length r /\
     (length r = length tx <-> fits (length rx) (length tx) offset)) /\
  (length tx = length rx -> t = tx /\ r = rx).
Proof.
  intros Ht Hr.
  assert (0 < length tx) by (destruct tx; [congruence|cbn; lia]).
  assert (0 < length rx) by (destruct rx; [congruence|cbn; lia]).
  unfold adjust_data_length.
  destruct (Nat.ltb_spec (length rx) (length tx)) as [H1|H1].
  - destruct (extend_arr_spec rx (Z.of_nat (length tx)) offset) as (out & E & Hd & Hl & Hge); [lia|lia|].
    rewrite E. cbn [bind]. exists tx, out. split; [reflexivity|]. rewrite fits_ok in Hl.
    repeat split; try lia; try assumption; intros; try (apply Hl; lia). assert (Z.of_nat (length out) = Z.of_nat (length tx)) by (apply Hl; assumption). lia.
  - destruct (Nat.ltb_spec (length tx) (length rx)) as [H2|H2].
    + destruct (extend_arr_spec tx (Z.of_nat (length rx)) offset) as (out & E & Hd & Hl & Hge); [lia|lia|].
      rewrite E. cbn [bind]. exists out, rx. split; [reflexivity|]. rewrite fits_ok in Hl.
      repeat split; try lia; try assumption; intros; try (apply Hl; lia). assert (Z.of_nat (length out) = Z.of_nat (length rx)) by (apply Hl; assumption). lia.
    + exists tx, rx. split; [reflexivity|]. repeat split; lia.
Qed.

Lemma c12_truncate {A} (tx rx : list A) offset : exists t r,
  adjust_data_length tx rx Truncate offset = Ok (t, r) /\
  length t = Nat.min (length tx) (length rx) /\ length r = Nat.min (length tx) (length rx) /\
  (forall k, k < length t -> nth_error t k = nth_error tx k /\ nth_error r k = nth_error rx k).
Proof.
  unfold adjust_data_length. destruct (Nat.ltb_spec (length rx) (length tx)) as [H1|H1];
    [|destruct (Nat.ltb_spec (length tx) (length rx)) as [H2|H2]].
  - do 2 eexists. split; [reflexivity|]. rewrite firstn_length. repeat split; try lia.
    rewrite nth_error_firstn_lt by lia. reflexivity.
  - do 2 eexists. split; [reflexivity|]. rewrite firstn_length. repeat split; try lia.
    rewrite nth_error_firstn_lt by lia. reflexivity.
  - do 2 eexists. split; [reflexivity|]. repeat split; lia.
Qed.

Lemma c12_none {A} (tx rx : list A) offset : tx <> [] ->
  exists t, adjust_data_length tx rx MethodNone offset = Ok (t, rx) /\
  (length tx < length rx -> delayed_repetition tx offset t /\
     (length t = length rx <-> offset = 0%Z \/ (0 < offset <= Z.of_nat (length rx) /\ offset mod Z.of_nat (length tx) <> 0)%Z)) /\
  (length rx <= length tx -> t = firstn (length rx) tx).
Proof.
  intros Ht. assert (0 < length tx) by (destruct tx; [congruence|cbn; lia]).
  unfold adjust_data_length.
  destruct (Nat.ltb_spec (length rx) (length tx)) as [H1|H1].
  - eexists. split; [reflexivity|]. split; [lia|reflexivity].
  - destruct (Nat.ltb_spec (length tx) (length rx)) as [H2|H2].
    + destruct (extend_none_spec tx (Z.of_nat (length rx)) offset) as (out & E & Hd & Hl); [lia|lia|].
      rewrite E. cbn [bind]. exists out. split; [reflexivity|]. split; [|lia]. intros _. split; [exact Hd|].
      rewrite <- Hl. lia.
    + exists tx. split; [reflexivity|]. split; [lia|]. intros. rewrite firstn_all2 by lia. reflexivity.
Qed.

Lemma roll_delayed {A} (l : list A) k : l <> [] -> delayed_repetition l k (roll k l) /\ length (roll k l) = length l.
Proof.
  intros Hl. split; [|apply roll_length]. intros i Hi. rewrite roll_length in Hi.
  rewrite roll_nth by assumption. reflexivity.
Qed.
Lemma firstn_delayed {A} (l : list A) k out n : delayed_repetition l k out -> delayed_repetition l k (firstn n out).
Proof.
  intros H i Hi. rewrite firstn_length in Hi. rewrite nth_error_firstn_lt by lia. apply H. lia.
Qed.

(** ** C13 *)
Definition align (l : list C) (n : nat) (offset : Z) (out : list C) : Prop :=
  delayed_repetition l offset out /\ n <= length out /\
  (length out = n <-> (length l < n -> fits (length l) n offset)).

Lemma c13_tx tx rx t r acm : tx <> [] -> rx <> [] -> sync_and_adjust tx rx AdjTx = Ok (t, r, acm) ->
  exists offset q, (q < 4)%nat /\ r = rx /\ align (turned q tx) (length rx) offset t /\
    (forall d, (Cabs (corr rx tx d) <= Cabs (corr rx tx offset))%R).
Proof.
  intros Ht Hr E. unfold sync_and_adjust in E.
  destruct (find_sequence_offset_complex rx tx) as [[[[offset t0] ii] a]|e] eqn:Ef; [|discriminate].
  cbn [bind] in E. destruct (c15 rx tx Hr Ht) as [Hz Hnz].
  assert (Hex : exists d0, corr rx tx d0 <> C0).
  { destruct (acs_max rx tx Hr Ht) as (m & _ & _).
    destruct (List.Exists_dec (fun d => corr rx tx d <> C0)
       (map (fun m => (Z.of_nat m - (Z.of_nat (length tx) - 1))%Z) (seq 0 (length rx + length tx - 1)))) as [H|H].
    - intros d. destruct (Ceq_dec (corr rx tx d) C0); [right|left]; tauto.
    - apply Exists_exists in H as (d & _ & Hd). now exists d.
    - exfalso. rewrite (Hz) in Ef; [discriminate|]. intros d.
      assert (Hc : lag rx tx d \/ ~ lag rx tx d) by (unfold lag; lia).
      destruct Hc as [Hl|Hl]; [|now apply corr_out].
      destruct (Ceq_dec (corr rx tx d) C0) as [Y|N]; [exact Y|]. exfalso. apply H. apply Exists_exists. exists d. split; [|exact N].
      apply in_map_iff. exists (Z.to_nat (d + (Z.of_nat (length tx) - 1))). unfold lag in Hl. split; [lia|]. apply in_seq. lia. }
  destruct Hex as [d0 Hd0]. destruct (Hnz d0 Hd0) as (ix & q & acm' & E' & Hq & _ & _ & Hmax & _).
  rewrite E' in Ef. injection Ef as <- <- <- <-.
  exists ix, q. split; [exact Hq|].
  assert (Htt : turned q tx <> []) by now apply turned_ne.
  destruct (roll_delayed (turned q tx) ix Htt) as [Hroll Hrl].
  destruct (Nat.ltb_spec (length rx) (length tx)) as [H1|H1];
    [|destruct (Nat.ltb_spec (length tx) (length rx)) as [H2|H2]].
  - unfold adjust_data_length in E. rewrite roll_length, turned_length in E.
    destruct (Nat.ltb_spec (length rx) (length tx)); [|lia]. cbn [bind] in E. injection E as <- <- <-.
    split; [reflexivity|]. split; [|exact Hmax]. split; [now apply firstn_delayed|].
    rewrite firstn_length, roll_length, turned_length. lia.
  - destruct (c12_extend (turned q tx) rx ix Htt Hr) as (t1 & r1 & Ea & Hlt & _). rewrite Ea in E. cbn [bind] in E.
    injection E as <- <- <-. rewrite turned_length in Hlt. destruct (Hlt H2) as (-> & Hd & Hge & Hiff).
    split; [reflexivity|]. split; [|exact Hmax]. split; [exact Hd|]. split; [exact Hge|]. rewrite turned_length. tauto.
  - injection E as <- <- <-. split; [reflexivity|]. split; [|exact Hmax]. split; [exact Hroll|].
    rewrite Hrl, turned_length. lia.
Qed.

Lemma c13_rx tx rx t r acm : tx <> [] -> rx <> [] -> sync_and_adjust tx rx AdjRx = Ok (t, r, acm) ->
  exists offset q, (q < 4)%nat /\ t = tx /\ align (turned q rx) (length tx) offset r /\
    (forall d, (Cabs (corr tx rx d) <= Cabs (corr tx rx offset))%R).
Proof.
  intros Ht Hr E.
  assert (E' : sync_and_adjust rx tx AdjTx = Ok (r, t, acm)).
  { unfold sync_and_adjust in *. destruct (find_sequence_offset_complex tx rx) as [[[[offset t0] ii] a]|e] eqn:Ef; [|discriminate].
    cbn [bind] in *. assert (Hl0 : length t0 = length rx).
    { destruct (c15 tx rx Ht Hr) as [Hz Hnz]. unfold find_sequence_offset_complex in Ef.
      destruct (offset_loop tx rx [0; 1; 2; 3]%nat None 0) as [[[[x1 x2]|] x3]|]; cbn [bind] in Ef; try discriminate.
      injection Ef as <- <- <- <-. apply map_length. }
    destruct (Nat.ltb_spec (length rx) (length tx)) as [H1|H1];
      destruct (Nat.ltb_spec (length tx) (length rx)) as [H2|H2]; try lia.
    - unfold adjust_data_length in *. rewrite Hl0 in *.
      destruct (Nat.ltb_spec (length rx) (length tx)); [|lia]. destruct (Nat.ltb_spec (length tx) (length rx)); [lia|].
      destruct (extend_arr t0 (Z.of_nat (length tx)) offset); cbn [bind] in *; [|discriminate]. congruence.
    - unfold adjust_data_length in *. rewrite roll_length, Hl0 in *.
      destruct (Nat.ltb_spec (length rx) (length tx)); [lia|]. destruct (Nat.ltb_spec (length tx) (length rx)); [|lia].
      cbn [bind] in *. congruence.
    - congruence. }
  exact (c13_tx rx tx r t acm Hr Ht E').
Qed.

(** recovery of position and rotation *)
Lemma c15_recovers x y p q : x <> [] -> y <> [] -> (q < 4)%nat -> all_nonzero y ->
  (forall d, lag x y d -> (energy_at x y d <= seq_energy y)%R) ->
  occurs_at x y p (quarter q) ->
  (forall d v, Cnorm2 v = 1%R -> occurs_at x y d v -> v = quarter q) ->
  exists ix, find_sequence_offset_complex x y = Ok (ix, turned q y, q, seq_energy y) /\ (ix <= p)%Z /\ occurs_at x y ix (quarter q).
Proof.
  intros Hx Hy Hq Hnz He Hp Huniq.
  pose proof (seq_energy_pos y Hy Hnz) as Hpos.
  destruct (find_offset_occurs x y p (quarter q) Hx Hy Hnz He Hp (quarter_unit q)) as (ix & v & Ef & Ho & Hv & Hl & Eabs & Hle).
  rewrite (Huniq ix v Hv Ho) in Ho.
  destruct (c15 x y Hx Hy) as [_ Hc].
  assert (Hcp : corr x y p = Cscal (seq_energy y) (quarter q)) by now apply occurs_corr.
  assert (Hd0 : corr x y p <> C0).
  { intros E. rewrite Hcp in E. apply (f_equal Cnorm2) in E. rewrite Cnorm2_scal, quarter_unit, Cnorm2_0 in E. nra. }
  destruct (Hc p Hd0) as (ix' & ii & acm & E & Hii & Hl' & Hacm & Hmax' & (d1 & Hd1) & Hall).
  assert (Eix : ix' = ix).
  { destruct (find_turned x y Hx Hy) as (jx & _ & _ & _ & E0 & Et). rewrite Ef in E0. injection E0 as <-.
    clear - E Et Hx Hy. unfold find_sequence_offset_complex in E.
    destruct (offset_loop x y [0; 1; 2; 3]%nat None 0) as [[[[b1 b2]|] a]|] eqn:El; cbn [bind] in E; try discriminate.
    assert (b1 = ix') by congruence. subst b1. clear E.
    assert (Hms : exists m : nat -> R, forall q, rmax (map fst (acs x (turned q y))) = Ok (m q)).
    { exists (fun q => match rmax (map fst (acs x (turned q y))) with Ok m => m | Err _ => 0%R end).
      intros k. destruct (acs_max x (turned k y) Hx (turned_ne k y Hy)) as (m & -> & _). reflexivity. }
    destruct Hms as [m Hms].
    destruct (offset_loop_spec x y ix m Et Hms [0; 1; 2; 3]%nat None 0%R) as (b' & a' & El' & _ & _ & Hcase).
    { repeat constructor; lia. }
    rewrite El in El'. injection El' as <- <-. destruct Hcase as [[H _]|(i & _ & H & _)]; congruence. }
  subst ix'.
  (* the maximal real part is the energy *)
  assert (Hb : forall k d, (k < 4)%nat -> (fst (corr x (turned k y) d) <= seq_energy y)%R).
  { intros k d Hk. eapply Rle_trans; [apply Rle_abs|]. eapply Rle_trans; [apply fst_le_Cabs|].
    rewrite Cabs_corr_turned.
    assert (Hcl : lag x y d \/ ~ lag x y d) by (unfold lag; lia). destruct Hcl as [H|H].
    - apply Cabs_le_sqr; [lra|]. apply corr_bound. now apply He.
    - rewrite corr_out by assumption. rewrite (proj2 (Cabs_0 C0) eq_refl). lra. }
  assert (Eacm : acm = seq_energy y).
  { apply Rle_antisym; [rewrite Hd1; now apply Hb|].
    pose proof (Hall q p Hq) as H. rewrite corr_turned, Hcp in H.
    replace (fst (Cconj (quarter q) * Cscal (seq_energy y) (quarter q))%C) with (seq_energy y) in H; [exact H|].
    replace (Cconj (quarter q) * Cscal (seq_energy y) (quarter q))%C with (Cscal (seq_energy y) (quarter q * Cconj (quarter q))%C) by cring.
    rewrite Cmul_conj, quarter_unit. unfold Cscal, RtoC. cbn [fst]. ring. }
  assert (Eii : ii = q).
  { assert (Hcl : lag x y d1 \/ ~ lag x y d1) by (unfold lag; lia). destruct Hcl as [H|H].
    - assert (En : (Cnorm2 (corr x y d1) = seq_energy y * seq_energy y)%R).
      { apply Rle_antisym; [apply corr_bound; now apply He|].
        rewrite <- Cabs_sqr, <- (Cabs_corr_turned x y ii d1).
        assert (seq_energy y <= Cabs (corr x (turned ii y) d1))%R.
        { rewrite <- Eacm at 1. rewrite Hd1. eapply Rle_trans; [apply Rle_abs|apply fst_le_Cabs]. }
        unfold Rsqr. nra. }
      destruct (corr_max_occurs x y d1 Hy Hnz (He d1 H) En) as (u & Hu & Hou & Hcu).
      rewrite (Huniq d1 u Hu Hou) in Hcu. rewrite corr_turned, Hcu, Eacm in Hd1. clear - Hd1 Hpos Hii Hq.
      destruct ii as [|[|[|[|ii]]]]; try lia; destruct q as [|[|[|[|q]]]]; try lia; try reflexivity;
        exfalso; unfold quarter, Cscal, Cmul, Cconj, C1, Ci in Hd1; cbn [fst snd] in Hd1; lra.
    - rewrite corr_turned, corr_out in Hd1 by assumption. unfold Cmul, C0 in Hd1. cbn [fst snd] in Hd1. lra. }
  rewrite Eii, Eacm in E. exists ix. split; [exact E|]. split; [exact Hle|exact Ho].
Qed.

(** ** a periodic received signal *)
Lemma rsum_shift1 n f : (rsum (S n) f - f 0%nat = rsum n (fun k => f (S k)))%R.
Proof. rewrite rsum_Sl. ring. Qed.
Definition per (l : list C) (z : Z) : C := nth (Z.to_nat (z mod Z.of_nat (length l))) l C0.
Lemma per_period l z : (0 < length l)%nat -> per l (z + Z.of_nat (length l)) = per l z.
Proof. intros H. unfold per. replace (z + Z.of_nat (length l))%Z with (z + 1 * Z.of_nat (length l))%Z by lia. now rewrite Z_mod_plus_full. Qed.
Lemma period_energy l s : (0 < length l)%nat ->
  rsum (length l) (fun k => Cnorm2 (per l (s + Z.of_nat k))) = seq_energy l.
Proof.
  intros Hl. set (F := fun z => rsum (length l) (fun k => Cnorm2 (per l (z + Z.of_nat k)))).
  assert (Hstep : forall z, F (z + 1)%Z = F z).
  { intros z. unfold F. destruct (length l) as [|n] eqn:En; [lia|].
    rewrite (rsum_Sl n (fun k => Cnorm2 (per l (z + Z.of_nat k)))).
    rewrite (rsum_S n (fun k => Cnorm2 (per l (z + 1 + Z.of_nat k)))).
    rewrite Rplus_comm. f_equal.
    - replace (z + 1 + Z.of_nat n)%Z with (z + Z.of_nat 0 + Z.of_nat (length l))%Z by lia. rewrite per_period by lia. reflexivity.
    - apply rsum_ext. intros k _. f_equal. f_equal. lia. }
  assert (Hnat : forall n z, F (z + Z.of_nat n)%Z = F z).
  { induction n as [|n IH]; intros z; [f_equal; lia|]. replace (z + Z.of_nat (S n))%Z with ((z + 1) + Z.of_nat n)%Z by lia. rewrite IH. apply Hstep. }
  assert (H0 : F s = F 0%Z).
  { destruct (Z_le_gt_dec 0 s) as [H|H].
    - rewrite <- (Hnat (Z.to_nat s) 0%Z). f_equal. lia.
    - rewrite <- (Hnat (Z.to_nat (- s)) s). f_equal. lia. }
  unfold F in H0. rewrite H0. unfold seq_energy, energy_at. apply rsum_ext. intros k Hk. f_equal.
  unfold per. cbn [Z.add]. rewrite ext_nth. rewrite Z.mod_small by lia. now rewrite Nat2Z.id.
Qed.


Lemma periodic_ext tx p q rx z : (0 < length tx)%nat -> periodic_copy tx p q rx -> (0 <= z < Z.of_nat (length rx))%Z ->
  ext rx z = (quarter q * per tx (z - p))%C.
Proof.
  intros Hl H Hz. specialize (H (Z.to_nat z) ltac:(lia)).
  pose proof (Z.mod_pos_bound (z - p) (Z.of_nat (length tx)) ltac:(lia)).
  unfold turned in H. rewrite nth_error_map in H. rewrite Z2Nat.id in H by lia.
  destruct (nth_error_lt_Some tx (Z.to_nat ((z - p) mod Z.of_nat (length tx))) ltac:(lia)) as [s Es].
  rewrite Es in H. cbn in H. apply ext_in in H. rewrite Z2Nat.id in H by lia. rewrite H. f_equal.
  unfold per. symmetry. now apply nth_error_nth.
Qed.

Lemma c13_recovers tx rx p q : tx <> [] -> all_nonzero tx -> no_self_copy tx -> (q < 4)%nat ->
  2 * length tx <= length rx -> periodic_copy tx p q rx ->
  exists acm, sync_and_adjust tx rx AdjTx = Ok (rx, rx, acm).
Proof.
  intros Ht Hnz Hns Hq Hlen Hp.
  assert (HL : 0 < length tx) by (destruct tx; [congruence|cbn; lia]).
  assert (Hrx : rx <> []) by (intros ->; cbn in Hlen; lia).
  set (L := Z.of_nat (length tx)) in *.
  pose proof (Z.mod_pos_bound p L ltac:(lia)) as Hpm.
  pose proof (Z.div_mod p L ltac:(lia)) as Hpd.
  assert (Hener : forall d, lag rx tx d -> (energy_at rx tx d <= seq_energy tx)%R).
  { intros d _. rewrite <- (period_energy tx (d - p) HL). unfold energy_at. apply rsum_le. intros k Hk.
    destruct (Z_lt_le_dec (d + Z.of_nat k) 0) as [H|H];
        [|destruct (Z_lt_le_dec (d + Z.of_nat k) (Z.of_nat (length rx))) as [H1|H1]].
    - rewrite ext_out by lia. rewrite Cnorm2_0. apply Cnorm2_nonneg.
    - rewrite (periodic_ext tx p q rx) by (assumption || lia). rewrite Cnorm2_mul, quarter_unit, Rmult_1_l.
      right. f_equal. f_equal. lia.
    - rewrite ext_out by lia. rewrite Cnorm2_0. apply Cnorm2_nonneg. }
  assert (Hocc : occurs_at rx tx (p mod L) (quarter q)).
  { split; [unfold L in *; lia|]. intros k Hk. rewrite (periodic_ext tx p q rx) by (assumption || (unfold L in *; lia)). f_equal.
    unfold per. rewrite ext_nth. f_equal. fold L.
    rewrite (mod_eq (p mod L + Z.of_nat k - p) L (- (p / L)) (Z.of_nat k)); [now rewrite Nat2Z.id|unfold L; lia|lia]. }
  assert (Huniq : forall d v, Cnorm2 v = 1%R -> occurs_at rx tx d v -> v = quarter q /\ ((d - p) mod L = 0)%Z).
  { intros d v Hv [[Hd1 Hd2] Hd].
    pose proof (Z.mod_pos_bound (d - p) L ltac:(lia)) as Hm.
    pose proof (Z.div_mod (d - p) L ltac:(lia)) as Hdm.
    assert (Hk : forall k, k < length tx -> (quarter q * nth ((k + Z.to_nat ((d - p) mod L)) mod length tx) tx C0)%C = (v * nth k tx C0)%C).
    { intros k Hk. specialize (Hd k Hk). rewrite ext_nth in Hd. rewrite <- Hd.
      rewrite (periodic_ext tx p q rx) by (assumption || lia). f_equal. unfold per. f_equal. fold L.
      rewrite <- (Nat2Z.id ((k + Z.to_nat ((d - p) mod L)) mod length tx)). f_equal.
      rewrite Nat2Z.inj_mod. fold L. rewrite Nat2Z.inj_add, Z2Nat.id by lia.
      replace (d + Z.of_nat k - p)%Z with (Z.of_nat k + (d - p))%Z by lia. rewrite Zplus_mod_idemp_r. reflexivity. }
    assert (Hs0 : ((d - p) mod L = 0)%Z).
    { destruct (Z.eq_dec ((d - p) mod L) 0) as [H|H]; [exact H|]. exfalso.
      apply (Hns (Z.to_nat ((d - p) mod L)) (Cconj (quarter q) * v)%C); [unfold L in *; lia| |].
      - rewrite Cnorm2_mul, Cnorm2_conj, quarter_unit, Hv. ring.
      - intros k Hlt. specialize (Hk k Hlt).
        match goal with |- ?a = _ => set (w := a) in * end.
        replace (Cconj (quarter q) * v * nth k tx C0)%C with (Cconj (quarter q) * (v * nth k tx C0))%C by ring.
        rewrite <- Hk.
        replace (Cconj (quarter q) * (quarter q * w))%C with (quarter q * Cconj (quarter q) * w)%C by ring.
        rewrite Cmul_conj, quarter_unit. cring. }
    split; [|exact Hs0].
    specialize (Hk 0 HL). rewrite Hs0 in Hk. cbn [Z.to_nat Nat.add] in Hk.
    rewrite Nat.mod_0_l in Hk by lia.
    assert (Hn0 : nth 0 tx C0 <> C0) by (apply Hnz; apply nth_In; exact HL).
    assert (Hz : ((v - quarter q) * nth 0 tx C0)%C = C0).
    { replace ((v - quarter q) * nth 0 tx C0)%C with (v * nth 0 tx C0 - quarter q * nth 0 tx C0)%C by ring. rewrite Hk. ring. }
    apply (f_equal Cnorm2) in Hz. rewrite Cnorm2_mul, Cnorm2_0 in Hz.
    destruct (Rmult_integral _ _ Hz) as [Hz'|Hz']; apply Cnorm2_zero in Hz'; [|contradiction].
    replace v with (v - quarter q + quarter q)%C by ring. rewrite Hz'. ring. }
  destruct (c15_recovers rx tx (p mod L) q Hrx Ht Hq Hnz Hener Hocc) as (ix & Ef & Hle & Ho).
  { intros d v Hv Hd. now apply (Huniq d v Hv Hd). }
  destruct (Huniq ix (quarter q) (quarter_unit q) Ho) as [_ Hmod].
  assert (Eix : (ix = p mod L)%Z).
  { assert (Hx0 : (0 <= ix)%Z) by (destruct Ho; lia).
    pose proof (Z.div_mod (ix - p) L ltac:(lia)) as Hdm. rewrite Hmod in Hdm.
    assert (ix mod L = p mod L)%Z.
    { replace ix with (p + (ix - p) / L * L)%Z by lia. apply Z_mod_plus_full. }
    rewrite <- (Z.mod_small ix L) at 1 by lia. assumption. }
  exists (seq_energy tx). unfold sync_and_adjust. rewrite Ef. cbn [bind].
  destruct (Nat.ltb_spec (length rx) (length tx)) as [H1|H1]; [lia|].
  destruct (Nat.ltb_spec (length tx) (length rx)) as [H2|H2]; [|lia].
  destruct (c12_extend (turned q tx) rx ix (turned_ne q tx Ht) Hrx) as (t1 & r1 & Ea & Hlt & _).
  rewrite Ea. cbn [bind]. rewrite turned_length in Hlt. destruct (Hlt H2) as (-> & Hdr & Hge & Hiff).
  assert (Ht1 : length t1 = length rx).
  { apply Hiff. unfold fits. fold L. split; [unfold L in *; lia|].
    destruct (Z.eq_dec ix 0); [left; lia|]. right; left. rewrite Z.mod_small by lia. assumption. }
  assert (t1 = rx).
  { apply nth_error_ext_lt; [exact Ht1|]. intros k Hk. rewrite Hdr by assumption.
    rewrite Hp by lia. f_equal. f_equal. rewrite turned_length. fold L.
    rewrite Eix. now rewrite Zminus_mod_idemp_r. }
  subst t1. reflexivity.
Qed.

Lemma c13_ok tx rx adj d0 : tx <> [] -> rx <> [] ->
  (match adj with AdjTx => corr rx tx d0 | AdjRx => corr tx rx d0 end) <> C0 ->
  exists t r acm, sync_and_adjust tx rx adj = Ok (t, r, acm).
Proof.
  intros Ht Hr Hd. destruct adj; unfold sync_and_adjust.
  - destruct (c15 rx tx Hr Ht) as [_ H]. destruct (H d0 Hd) as (ix & ii & acm & E & _). rewrite E. cbn [bind].
    destruct (Nat.ltb_spec (length rx) (length tx)) as [H1|H1].
    + destruct (c12_truncate (roll ix (turned ii tx)) rx 0) as (t & r & E1 & _). rewrite E1. cbn [bind]. eauto.
    + destruct (Nat.ltb_spec (length tx) (length rx)) as [H2|H2]; [|eauto].
      destruct (c12_extend (turned ii tx) rx ix (turned_ne ii tx Ht) Hr) as (t & r & E1 & _). rewrite E1. cbn [bind]. eauto.
  - destruct (c15 tx rx Ht Hr) as [_ H]. destruct (H d0 Hd) as (ix & ii & acm & E & _). rewrite E. cbn [bind].
    destruct (Nat.ltb_spec (length rx) (length tx)) as [H1|H1].
    + destruct (c12_extend tx (turned ii rx) ix Ht (turned_ne ii rx Hr)) as (t & r & E1 & _). rewrite E1. cbn [bind]. eauto.
    + destruct (Nat.ltb_spec (length tx) (length rx)) as [H2|H2]; [|eauto].
      destruct (c12_truncate tx (roll ix (turned ii rx)) 0) as (t & r & E1 & _). rewrite E1. cbn [bind]. eauto.
Qed.

Lemma corr_one_zero x d : corr x [C1; C0] d = ext x d.
Proof.
  unfold corr. cbn [length]. rewrite !csum_S, csum_0. rewrite !ext_nth. cbn [nth]. rewrite Z.add_0_r.
  destruct (ext x d) as [a b]. cring.
Qed.

Lemma c13_bad : exists t acm, sync_and_adjust [C1; C0] [C0; C0; (5, 0)%R] AdjTx = Ok (t, [C0; C0; (5, 0)%R], acm) /\ length t <> 3.
Proof.
  set (rx := [C0; C0; (5, 0)%R]).
  assert (H2 : ext rx 2 = (5, 0)%R) by reflexivity.
  assert (Hrx : rx <> []) by discriminate. assert (Htx : [C1; C0] <> []) by discriminate.
  destruct (c13_ok [C1; C0] rx AdjTx 2 Htx Hrx) as (t & r & acm & E).
  { rewrite corr_one_zero, H2. intros K. injection K as K. lra. }
  destruct (c13_tx _ _ _ _ _ Htx Hrx E) as (offset & q & Hq & -> & (Hd & Hge & Hiff) & Hmax).
  exists t, acm. split; [exact E|].
  assert (offset = 2%Z).
  { specialize (Hmax 2%Z). rewrite !corr_one_zero, H2 in Hmax.
    destruct (Z.eq_dec offset 2) as [->|Hne]; [reflexivity|]. exfalso.
    assert (Hz : ext rx offset = C0).
    { destruct (Z.eq_dec offset 0) as [->|]; [reflexivity|]. destruct (Z.eq_dec offset 1) as [->|]; [reflexivity|].
      apply ext_out. cbn [length rx]. change (length rx) with 3. lia. }
    rewrite Hz in Hmax. apply Cabs_le in Hmax. unfold Cnorm2, C0 in Hmax. cbn [fst snd] in Hmax. lra. }
  subst offset. intros Hl. rewrite turned_length in *. cbn [length rx] in *.
  destruct (proj1 Hiff Hl) as [_ [H|[H|H]]]; [cbn; lia|cbn in H; lia|cbn in H; lia|cbn in H; lia].
Qed.
