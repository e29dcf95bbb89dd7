From Coq Require Import List ZArith Bool Lia Arith Reals Lra ZifyBool ZifyNat.
From Verif Require Import Common.Py Common.ListX Common.Cplx Common.SumX Model.Windows Spec.Win Spec.Frames.
Import ListNotations.

(** ** C45 *)
Lemma pyslice_to_nat {A} (l : list A) a : pyslice_to (Z.of_nat a) l = firstn a l.
Proof.
  unfold pyslice_to, clipz. destruct (Z.ltb_spec (Z.of_nat a) 0); [lia|].
  destruct (Nat.le_gt_cases a (length l)).
  - f_equal. lia.
  - rewrite !firstn_all2 by lia. reflexivity.
Qed.

Lemma seg_rows {A} (a : list A) (src : nat -> option A) len hop n :
  0 < hop -> length a = len + (n - 1) * hop -> 1 <= n -> (forall k, k < length a -> nth_error a k = src k) ->
  frames_of src n len hop (map (fun i => pyslice (Z.of_nat i * Z.of_nat hop) (Z.of_nat i * Z.of_nat hop + Z.of_nat len) a) (seq 0 n)).
Proof.
  intros Hh Hl Hn Hs. split; [now rewrite map_length, seq_length|]. intros i Hi.
  rewrite nth_error_map_seq by assumption. cbn [Nat.add].
  replace (Z.of_nat i * Z.of_nat hop)%Z with (Z.of_nat (i * hop)) by lia.
  replace (Z.of_nat (i * hop) + Z.of_nat len)%Z with (Z.of_nat (i * hop + len)) by lia.
  assert (i * hop <= (n - 1) * hop) by (apply Nat.mul_le_mono_r; lia).
  eexists. split; [reflexivity|]. rewrite pyslice_nat by lia.
  assert (L : length (firstn (i * hop + len - i * hop) (skipn (i * hop) a)) = len) by (rewrite firstn_length, skipn_length; lia).
  split; [exact L|]. intros j Hj. split.
  - rewrite nth_error_firstn_lt by lia. rewrite nth_error_skipn'. apply Hs. lia.
  - apply nth_error_Some. lia.
Qed.

Lemma seg_finish {A} (a' : list A) (src : nat -> option A) len hop n :
  0 < hop -> 0 < len -> 1 <= n -> length a' = len + (n - 1) * hop -> (forall k, k < length a' -> nth_error a' k = src k) ->
  exists out, (let l := Z.of_nat (length a') in
    if (l =? 0)%Z then Err ValueError else
    if (l <? Z.of_nat len)%Z then Err AssertionError else
    if negb ((l - Z.of_nat len) mod Z.of_nat hop =? 0)%Z then Err AssertionError else
    Ok (map (fun i => pyslice (Z.of_nat i * Z.of_nat hop) (Z.of_nat i * Z.of_nat hop + Z.of_nat len) a') (seq 0 (Z.to_nat (1 + (l - Z.of_nat len) / Z.of_nat hop))))) = Ok out /\
    frames_of src n len hop out.
Proof.
  intros Hh Hlen Hn Hl Hs. cbn zeta. assert (Hge : len <= length a') by (rewrite Hl; apply Nat.le_add_r).
  destruct (Z.eqb_spec (Z.of_nat (length a')) 0); [lia|]. destruct (Z.ltb_spec (Z.of_nat (length a')) (Z.of_nat len)); [lia|].
  replace (Z.of_nat (length a') - Z.of_nat len)%Z with (Z.of_nat (n - 1) * Z.of_nat hop)%Z by lia.
  rewrite Z_mod_mult. rewrite Z_div_mult by lia. cbn [Z.eqb negb].
  replace (Z.to_nat (1 + Z.of_nat (n - 1))) with n by lia.
  eexists. split; [reflexivity|]. now apply seg_rows.
Qed.

(** number of whole frames, and of frames needed to cover everything *)

Lemma nth_error_padded {A} (a : list A) (x : A) k i : i < length a + k -> nth_error (a ++ repeat x k) i = padded x a i.
Proof.
  intros Hi. unfold padded. destruct (Nat.lt_ge_cases i (length a)) as [H|H].
  - rewrite nth_error_app1 by assumption. destruct (nth_error a i) eqn:E; [reflexivity|]. apply nth_error_None in E. lia.
  - rewrite nth_error_app2 by assumption. rewrite nth_error_repeat_lt by lia. rewrite (proj2 (nth_error_None a i)) by assumption. reflexivity.
Qed.

Lemma nth_error_cyc {A} (a : list A) k i : k <= length a -> i < length a + k -> nth_error (a ++ firstn k a) i = cyc a i.
Proof.
  intros Hk Hi. unfold cyc. destruct (Nat.lt_ge_cases i (length a)) as [H|H].
  - rewrite nth_error_app1, Nat.mod_small by assumption. reflexivity.
  - rewrite nth_error_app2 by assumption. rewrite nth_error_firstn_lt by lia. f_equal.
    replace i with ((i - length a) + 1 * length a) at 2 by lia. rewrite Nat.mod_add by lia. rewrite Nat.mod_small; lia.
Qed.

Section Seg.
Context {A : Type} (a : list A) (len overlap : nat) (v : A).
Hypothesis Hov : overlap < len.
Let hop := len - overlap.
Let l := length a.

Lemma hopZ : (Z.of_nat len - Z.of_nat overlap)%Z = Z.of_nat hop. Proof. unfold hop. lia. Qed.

Lemma seg_start em : segment_axis a (Z.of_nat len) (Z.of_nat overlap) em v =
  let! a' := (if ((Z.of_nat l <? Z.of_nat len) || negb ((Z.of_nat l - Z.of_nat len) mod Z.of_nat hop =? 0))%Z then
       let roundup := if (Z.of_nat len <? Z.of_nat l)%Z then (Z.of_nat len + (1 + (Z.of_nat l - Z.of_nat len) / Z.of_nat hop) * Z.of_nat hop)%Z else Z.of_nat len in
       let rounddown := if (Z.of_nat len <? Z.of_nat l)%Z then (Z.of_nat len + (Z.of_nat l - Z.of_nat len) / Z.of_nat hop * Z.of_nat hop)%Z else 0%Z in
       if negb ((rounddown <? Z.of_nat l) && (Z.of_nat l <? roundup))%Z then Err AssertionError else
       if negb ((roundup =? rounddown + Z.of_nat hop) || ((roundup =? Z.of_nat len) && (rounddown =? 0)))%Z then Err AssertionError else
       match em with
       | Cut => Ok (pyslice_to rounddown a)
       | Pad => Ok (a ++ repeat v (Z.to_nat (roundup - Z.of_nat l)))
       | Wrap =>
           let w := pyslice_to (roundup - Z.of_nat l) a in
           if (Z.of_nat (length w) =? roundup - Z.of_nat l)%Z then Ok (a ++ w)
           else match w with [x] => Ok (a ++ repeat x (Z.to_nat (roundup - Z.of_nat l))) | _ => Err ValueError end
       | OtherEnd => Ok a
       end
     else Ok a) in
  let l := Z.of_nat (length a') in
    if (l =? 0)%Z then Err ValueError else
    if (l <? Z.of_nat len)%Z then Err AssertionError else
    if negb ((l - Z.of_nat len) mod Z.of_nat hop =? 0)%Z then Err AssertionError else
    Ok (map (fun i => pyslice (Z.of_nat i * Z.of_nat hop) (Z.of_nat i * Z.of_nat hop + Z.of_nat len) a') (seq 0 (Z.to_nat (1 + (l - Z.of_nat len) / Z.of_nat hop)))).
Proof.
  unfold segment_axis. destruct (Z.leb_spec (Z.of_nat len) (Z.of_nat overlap)); [lia|].
  destruct (Z.ltb_spec (Z.of_nat overlap) 0); [lia|]. destruct (Z.leb_spec (Z.of_nat len) 0); [lia|]. cbn [orb].
  rewrite hopZ. reflexivity.
Qed.

Lemma divZ : len <= l -> ((Z.of_nat l - Z.of_nat len) / Z.of_nat hop = Z.of_nat ((l - len) / hop))%Z.
Proof. intros. rewrite <- Nat2Z.inj_sub by lia. now rewrite <- Nat2Z.inj_div. Qed.
Lemma modZ : len <= l -> ((Z.of_nat l - Z.of_nat len) mod Z.of_nat hop = Z.of_nat ((l - len) mod hop))%Z.
Proof. intros. rewrite <- Nat2Z.inj_sub by lia. now rewrite <- Nat2Z.inj_mod. Qed.

(** the middle part: what the array becomes *)
Lemma seg_case : 
  (* evenly divided *)
  (len <= l /\ (l - len) mod hop = 0 /\ forall em, exists out, segment_axis a (Z.of_nat len) (Z.of_nat overlap) em v = Ok out /\
      frames_of (nth_error a) (n_cut l len hop) len hop out /\ n_cover l len hop = n_cut l len hop) \/
  (* at least one frame plus a rest *)
  (len < l /\ (l - len) mod hop <> 0 /\ n_cover l len hop = S (n_cut l len hop) /\ l < len + (n_cut l len hop) * hop /\ len + (n_cut l len hop - 1) * hop < l) \/
  l < len.
Proof.
  assert (Hhop : 0 < hop) by (unfold hop; lia).
  destruct (Nat.lt_ge_cases l len) as [|Hle]; [tauto|].
  pose proof (Nat.div_mod (l - len) hop ltac:(lia)) as Hdm. pose proof (Nat.mod_upper_bound (l - len) hop ltac:(lia)) as Hmb.
  destruct (Nat.eq_dec ((l - len) mod hop) 0) as [E|E].
  - left. split; [assumption|]. split; [assumption|]. intros em. rewrite seg_start.
    destruct (Z.ltb_spec (Z.of_nat l) (Z.of_nat len)); [lia|]. rewrite modZ, E by assumption. cbn [Z.of_nat Z.eqb negb orb bind].
    destruct (seg_finish a (nth_error a) len hop (n_cut l len hop)) as (out & E1 & E2); unfold n_cut in *; try lia.
    + intros; reflexivity.
    + exists out. split; [exact E1|]. split; [exact E2|]. unfold n_cover. f_equal.
      set (q := (l - len) / hop) in *. symmetry. apply Nat.div_unique with (hop - 1); nia.
  - right. left. assert (len < l) by (destruct (Nat.eq_dec l len) as [->|]; [rewrite Nat.sub_diag, Nat.mod_0_l in E; lia|lia]).
    split; [assumption|]. split; [assumption|]. unfold n_cover, n_cut. set (q := (l - len) / hop) in *. set (r := (l - len) mod hop) in *.
    split; [|split; cbn [Nat.add Nat.sub]; nia]. cbn [Nat.add]. f_equal. symmetry. apply Nat.div_unique with (r - 1); nia.
Qed.

Lemma seg_cut : len <= l -> exists out, segment_axis a (Z.of_nat len) (Z.of_nat overlap) Cut v = Ok out /\
  frames_of (nth_error a) (n_cut l len hop) len hop out.
Proof.
  intros Hle. assert (Hhop : 0 < hop) by (unfold hop; lia).
  destruct seg_case as [(H1 & H2 & H3)|[(H1 & H2 & H3 & H4 & H5)|]]; [| |lia].
  - destruct (H3 Cut) as (out & E & F & _). eauto.
  - rewrite seg_start. destruct (Z.ltb_spec (Z.of_nat l) (Z.of_nat len)); [lia|]. rewrite modZ by assumption.
    destruct (Z.eqb_spec (Z.of_nat ((l - len) mod hop)) 0); [lia|]. cbn [negb orb]. destruct (Z.ltb_spec (Z.of_nat len) (Z.of_nat l)); [|lia].
    rewrite divZ by assumption. unfold n_cut in *. set (q := (l - len) / hop) in *. cbn [Nat.add Nat.sub] in *. rewrite ?Nat.sub_0_r in H5. cbn zeta.
    replace (Z.of_nat len + Z.of_nat q * Z.of_nat hop)%Z with (Z.of_nat (len + q * hop)) by lia.
    replace (Z.of_nat len + (1 + Z.of_nat q) * Z.of_nat hop)%Z with (Z.of_nat (len + S q * hop)) by lia.
    destruct (Z.ltb_spec (Z.of_nat (len + q * hop)) (Z.of_nat l)); [|lia]. destruct (Z.ltb_spec (Z.of_nat l) (Z.of_nat (len + S q * hop))); [|lia].
    cbn [andb negb]. destruct (Z.eqb_spec (Z.of_nat (len + S q * hop)) (Z.of_nat (len + q * hop) + Z.of_nat hop)); [|lia]. cbn [orb negb bind].
    rewrite pyslice_to_nat. destruct (seg_finish (firstn (len + q * hop) a) (nth_error a) len hop (S q)) as (out & E1 & E2); try lia.
    + rewrite firstn_length. fold l. cbn [Nat.sub]. rewrite ?Nat.sub_0_r. lia.
    + rewrite firstn_length. intros k Hk. apply nth_error_firstn_lt. lia.
    + exists out. split; [exact E1|exact E2].
Qed.

Lemma seg_cut_short : l < len -> segment_axis a (Z.of_nat len) (Z.of_nat overlap) Cut v = Err (if l =? 0 then AssertionError else ValueError).
Proof.
  intros Hlt. rewrite seg_start. destruct (Z.ltb_spec (Z.of_nat l) (Z.of_nat len)); [|lia]. cbn [orb].
  destruct (Z.ltb_spec (Z.of_nat len) (Z.of_nat l)); [lia|]. cbn zeta.
  destruct (Nat.eqb_spec l 0) as [->|Hne].
  - reflexivity.
  - destruct (Z.ltb_spec 0 (Z.of_nat l)); [|lia]. destruct (Z.ltb_spec (Z.of_nat l) (Z.of_nat len)); [|lia]. cbn [andb negb].
    rewrite Z.eqb_refl. cbn [Z.eqb andb]. rewrite orb_true_r. cbn [negb bind]. change (pyslice_to 0 a) with (pyslice_to (Z.of_nat 0) a). rewrite pyslice_to_nat. reflexivity.
Qed.

Lemma seg_pad : 1 <= l -> exists out, segment_axis a (Z.of_nat len) (Z.of_nat overlap) Pad v = Ok out /\
  frames_of (padded v a) (n_cover l len hop) len hop out.
Proof.
  intros Hl1. assert (Hhop : 0 < hop) by (unfold hop; lia).
  destruct seg_case as [(H1 & H2 & H3)|[(H1 & H2 & H3 & H4 & H5)|Hlt]].
  - destruct (H3 Pad) as (out & E & F & En). exists out. split; [exact E|]. rewrite En.
    destruct F as [F1 F2]. split; [exact F1|]. intros i Hi. destruct (F2 i Hi) as (fr & G1 & G2 & G3). exists fr. split; [exact G1|]. split; [exact G2|].
    intros j Hj. destruct (G3 j Hj) as [K1 K2]. split; [|exact K2]. unfold padded. rewrite <- K1. destruct (nth_error fr j); congruence.
  - rewrite seg_start. destruct (Z.ltb_spec (Z.of_nat l) (Z.of_nat len)); [lia|]. rewrite modZ by lia.
    destruct (Z.eqb_spec (Z.of_nat ((l - len) mod hop)) 0); [lia|]. cbn [negb orb]. destruct (Z.ltb_spec (Z.of_nat len) (Z.of_nat l)); [|lia].
    rewrite divZ by lia. rewrite H3. unfold n_cut in *. set (q := (l - len) / hop) in *. cbn [Nat.add Nat.sub] in *. rewrite ?Nat.sub_0_r in H5. cbn zeta.
    replace (Z.of_nat len + Z.of_nat q * Z.of_nat hop)%Z with (Z.of_nat (len + q * hop)) by lia.
    replace (Z.of_nat len + (1 + Z.of_nat q) * Z.of_nat hop)%Z with (Z.of_nat (len + S q * hop)) by lia.
    destruct (Z.ltb_spec (Z.of_nat (len + q * hop)) (Z.of_nat l)); [|lia]. destruct (Z.ltb_spec (Z.of_nat l) (Z.of_nat (len + S q * hop))); [|lia].
    cbn [andb negb]. destruct (Z.eqb_spec (Z.of_nat (len + S q * hop)) (Z.of_nat (len + q * hop) + Z.of_nat hop)); [|lia]. cbn [orb negb bind].
    replace (Z.to_nat (Z.of_nat (len + S q * hop) - Z.of_nat l)) with (len + S q * hop - l) by lia.
    destruct (seg_finish (a ++ repeat v (len + S q * hop - l)) (padded v a) len hop (S (S q))) as (out & E1 & E2); try lia.
    + rewrite app_length, repeat_length. fold l. cbn [Nat.sub]. lia.
    + rewrite app_length, repeat_length. intros k Hk. apply nth_error_padded. exact Hk.
    + exists out. split; [exact E1|exact E2].
  - rewrite seg_start. destruct (Z.ltb_spec (Z.of_nat l) (Z.of_nat len)); [|lia]. cbn [orb].
    destruct (Z.ltb_spec (Z.of_nat len) (Z.of_nat l)); [lia|]. cbn zeta.
    destruct (Z.ltb_spec 0 (Z.of_nat l)); [|lia]. destruct (Z.ltb_spec (Z.of_nat l) (Z.of_nat len)); [|lia]. cbn [andb negb].
    rewrite Z.eqb_refl. cbn [Z.eqb andb]. rewrite orb_true_r. cbn [negb bind].
    replace (Z.to_nat (Z.of_nat len - Z.of_nat l)) with (len - l) by lia.
    destruct (seg_finish (a ++ repeat v (len - l)) (padded v a) len hop 1) as (out & E1 & E2); try lia.
    + rewrite app_length, repeat_length. fold l. lia.
    + rewrite app_length, repeat_length. intros k Hk. apply nth_error_padded. exact Hk.
    + exists out. split; [exact E1|]. replace (n_cover l len hop) with 1; [exact E2|]. unfold n_cover. replace (l - len) with 0 by lia. rewrite Nat.div_small; lia.
Qed.

Lemma seg_wrap : 1 <= l -> len <= 2 * l -> exists out, segment_axis a (Z.of_nat len) (Z.of_nat overlap) Wrap v = Ok out /\
  frames_of (cyc a) (n_cover l len hop) len hop out.
Proof.
  intros Hl1 Hl2. assert (Hhop : 0 < hop) by (unfold hop; lia).
  destruct seg_case as [(H1 & H2 & H3)|[(H1 & H2 & H3 & H4 & H5)|Hlt]].
  - destruct (H3 Wrap) as (out & E & F & En). exists out. split; [exact E|]. rewrite En.
    destruct F as [F1 F2]. split; [exact F1|]. intros i Hi. destruct (F2 i Hi) as (fr & G1 & G2 & G3). exists fr. split; [exact G1|]. split; [exact G2|].
    intros j Hj. destruct (G3 j Hj) as [K1 K2]. split; [|exact K2]. unfold cyc. rewrite K1. f_equal. symmetry. apply Nat.mod_small.
    apply nth_error_Some. now rewrite <- K1.
  - rewrite seg_start. destruct (Z.ltb_spec (Z.of_nat l) (Z.of_nat len)); [lia|]. rewrite modZ by lia.
    destruct (Z.eqb_spec (Z.of_nat ((l - len) mod hop)) 0); [lia|]. cbn [negb orb]. destruct (Z.ltb_spec (Z.of_nat len) (Z.of_nat l)); [|lia].
    rewrite divZ by lia. rewrite H3. unfold n_cut in *. set (q := (l - len) / hop) in *. cbn [Nat.add Nat.sub] in *. rewrite ?Nat.sub_0_r in H5. cbn zeta.
    replace (Z.of_nat len + Z.of_nat q * Z.of_nat hop)%Z with (Z.of_nat (len + q * hop)) by lia.
    replace (Z.of_nat len + (1 + Z.of_nat q) * Z.of_nat hop)%Z with (Z.of_nat (len + S q * hop)) by lia.
    destruct (Z.ltb_spec (Z.of_nat (len + q * hop)) (Z.of_nat l)); [|lia]. destruct (Z.ltb_spec (Z.of_nat l) (Z.of_nat (len + S q * hop))); [|lia].
    cbn [andb negb]. destruct (Z.eqb_spec (Z.of_nat (len + S q * hop)) (Z.of_nat (len + q * hop) + Z.of_nat hop)); [|lia]. cbn [orb negb].
    replace (Z.of_nat (len + S q * hop) - Z.of_nat l)%Z with (Z.of_nat (len + S q * hop - l)) by lia.
    rewrite pyslice_to_nat. assert (Hs : len + S q * hop - l <= l) by (unfold hop in *; lia).
    rewrite firstn_length. fold l. rewrite Nat.min_l by exact Hs. rewrite Z.eqb_refl. cbn [bind].
    destruct (seg_finish (a ++ firstn (len + S q * hop - l) a) (cyc a) len hop (S (S q))) as (out & E1 & E2); try lia.
    + rewrite app_length, firstn_length. fold l. cbn [Nat.sub]. lia.
    + rewrite app_length, firstn_length. fold l. intros k Hk. apply nth_error_cyc; fold l; lia.
    + exists out. split; [exact E1|exact E2].
  - rewrite seg_start. destruct (Z.ltb_spec (Z.of_nat l) (Z.of_nat len)); [|lia]. cbn [orb].
    destruct (Z.ltb_spec (Z.of_nat len) (Z.of_nat l)); [lia|]. cbn zeta.
    destruct (Z.ltb_spec 0 (Z.of_nat l)); [|lia]. destruct (Z.ltb_spec (Z.of_nat l) (Z.of_nat len)); [|lia]. cbn [andb negb].
    rewrite Z.eqb_refl. cbn [Z.eqb andb]. rewrite orb_true_r. cbn [negb].
    replace (Z.of_nat len - Z.of_nat l)%Z with (Z.of_nat (len - l)) by lia. rewrite pyslice_to_nat, firstn_length. fold l. rewrite Nat.min_l by lia. rewrite Z.eqb_refl. cbn [bind].
    destruct (seg_finish (a ++ firstn (len - l) a) (cyc a) len hop 1) as (out & E1 & E2); try lia.
    + rewrite app_length, firstn_length. fold l. lia.
    + rewrite app_length, firstn_length. fold l. intros k Hk. apply nth_error_cyc; fold l; lia.
    + exists out. split; [exact E1|]. replace (n_cover l len hop) with 1; [exact E2|]. unfold n_cover. replace (l - len) with 0 by lia. rewrite Nat.div_small; lia.
Qed.

Lemma seg_wrap_short : 2 <= l -> 2 * l < len -> segment_axis a (Z.of_nat len) (Z.of_nat overlap) Wrap v = Err ValueError.
Proof.
  intros Hl1 Hl2. rewrite seg_start. destruct (Z.ltb_spec (Z.of_nat l) (Z.of_nat len)); [|lia]. cbn [orb].
  destruct (Z.ltb_spec (Z.of_nat len) (Z.of_nat l)); [lia|]. cbn zeta.
  destruct (Z.ltb_spec 0 (Z.of_nat l)); [|lia]. destruct (Z.ltb_spec (Z.of_nat l) (Z.of_nat len)); [|lia]. cbn [andb negb].
  rewrite Z.eqb_refl. cbn [Z.eqb andb]. rewrite orb_true_r. cbn [negb].
  replace (Z.of_nat len - Z.of_nat l)%Z with (Z.of_nat (len - l)) by lia. rewrite pyslice_to_nat, firstn_length. fold l.
  destruct (Z.eqb_spec (Z.of_nat (Nat.min (len - l) l)) (Z.of_nat (len - l))); [lia|].
  rewrite firstn_all2 by (fold l; lia). unfold l in Hl1. destruct a as [|x [|y a']]; cbn in Hl1; try lia. reflexivity.
Qed.
End Seg.

Lemma seg_invalid {A} (a : list A) (len overlap : Z) em v : (len <= overlap \/ overlap < 0 \/ len <= 0)%Z ->
  segment_axis a len overlap em v = Err ValueError.
Proof.
  intros H. unfold segment_axis. destruct (Z.leb_spec len overlap); [reflexivity|].
  destruct (Z.ltb_spec overlap 0); [reflexivity|]. destruct (Z.leb_spec len 0); [reflexivity|]. lia.
Qed.

(** ** C46 *)
Lemma roll_plain {A} (data : list A) size : size <= length data + 1 ->
  exists out, rolling_window data size false = Ok out /\ length out = length data + 1 - size /\
   forall i, i < length data + 1 - size -> nth_error out i = Some (map Some (firstn size (skipn i data))).
Proof.
  intros H. unfold rolling_window. destruct (Z.ltb_spec (Z.of_nat (length data) - Z.of_nat size + 1) 0); [lia|].
  eexists. split; [reflexivity|]. replace (Z.to_nat _) with (length data + 1 - size) by lia.
  split; [now rewrite map_length, seq_length|]. intros i Hi. rewrite nth_error_map_seq by assumption. cbn [Nat.add]. f_equal.
  apply nth_error_ext_lt.
  - rewrite !map_length, seq_length, firstn_length, skipn_length. lia.
  - intros j Hj. rewrite map_length, seq_length in Hj. rewrite nth_error_map_seq by assumption. cbn [Nat.add].
    rewrite nth_error_map, nth_error_firstn_lt, nth_error_skipn' by assumption.
    destruct (nth_error_lt_Some data (i + j) ltac:(lia)) as (x & ->). reflexivity.
Qed.
Lemma roll_plain_err {A} (data : list A) size : length data + 1 < size -> rolling_window data size false = Err ValueError.
Proof. intros H. unfold rolling_window. destruct (Z.ltb_spec (Z.of_nat (length data) - Z.of_nat size + 1) 0); [reflexivity|lia]. Qed.
Lemma roll_wrap {A} (data : list A) size : size <= length data + 1 ->
  exists out, rolling_window data size true = Ok out /\ length out = length data /\
   forall i, i < length data -> exists row, nth_error out i = Some row /\ length row = size /\
     forall j, j < size -> nth_error row j = Some (cyc data (i + j)) /\ cyc data (i + j) <> None.
Proof.
  intros H. unfold rolling_window. destruct (Z.ltb_spec (Z.of_nat (length data)) 0); [lia|].
  eexists. split; [reflexivity|]. rewrite Nat2Z.id. split; [now rewrite map_length, seq_length|].
  intros i Hi. rewrite nth_error_map_seq by assumption. cbn [Nat.add]. eexists. split; [reflexivity|]. split; [now rewrite map_length, seq_length|].
  intros j Hj. rewrite nth_error_map_seq by assumption. cbn [Nat.add].
  replace (Z.of_nat size - 1)%Z with (Z.of_nat (size - 1)) by lia. rewrite pyslice_to_nat.
  rewrite nth_error_cyc by lia. split; [reflexivity|]. unfold cyc. apply nth_error_Some. apply Nat.mod_upper_bound. lia.
Qed.
Lemma roll_wrap_oob {A} (data : list A) size : 1 <= length data -> length data + 1 < size ->
  exists out row, rolling_window data size true = Ok out /\ nth_error out (length data - 1) = Some row /\ nth_error row (size - 1) = Some None.
Proof.
  intros H1 H2. unfold rolling_window. destruct (Z.ltb_spec (Z.of_nat (length data)) 0); [lia|].
  eexists. eexists. split; [reflexivity|]. rewrite Nat2Z.id. split; [rewrite nth_error_map_seq by lia; reflexivity|].
  rewrite nth_error_map_seq by lia. cbn [Nat.add]. f_equal. apply nth_error_None.
  replace (Z.of_nat size - 1)%Z with (Z.of_nat (size - 1)) by lia. rewrite pyslice_to_nat, app_length, firstn_length. lia.
Qed.

(** ** C47 *)
Lemma cumsum_length acc l : length (cumsum acc l) = length l.
Proof. revert acc. induction l as [|x l IH]; intros acc; cbn; [reflexivity|]. now rewrite IH. Qed.
Lemma cumsum_nth acc l i : i < length l -> nth_error (cumsum acc l) i = Some (acc + Csum (firstn (S i) l))%C.
Proof.
  revert acc i. induction l as [|x l IH]; intros acc i Hi; cbn [length] in Hi; [lia|].
  destruct i as [|i]; cbn [cumsum nth_error].
  - f_equal. rewrite firstn_cons, Csum_cons. cbn [firstn]. change (Csum []) with C0. cring.
  - rewrite IH by lia. f_equal. rewrite (firstn_cons (S i)), Csum_cons. cring.
Qed.
Lemma mavg (sig : list C) N : 1 <= N -> N <= length sig + 1 ->
  exists out, moving_average sig (Z.of_nat N) = Ok out /\ length out = length sig + 1 - N /\
    forall i, i < length sig + 1 - N -> nth_error out i = Some (window_mean sig i N).
Proof.
  intros H1 H2. unfold moving_average. set (ret := cumsum C0 (C0 :: sig)).
  assert (Lr : length ret = length sig + 1) by (unfold ret; rewrite cumsum_length; cbn; lia).
  assert (E1 : pyslice_from (Z.of_nat N) ret = skipn N ret) by (unfold pyslice_from; rewrite clipz_pos by lia; now rewrite Nat2Z.id).
  assert (E2 : pyslice_to (- Z.of_nat N) ret = firstn (length ret - N) ret).
  { unfold pyslice_to, clipz. destruct (Z.ltb_spec (- Z.of_nat N) 0); [|lia]. f_equal. lia. }
  rewrite E1, E2, skipn_length, firstn_length. replace (Nat.min (length ret - N) (length ret)) with (length ret - N) by lia.
  rewrite Nat.eqb_refl. eexists. split; [reflexivity|]. rewrite map_length, combine_length, skipn_length, firstn_length.
  split; [lia|]. intros i Hi. rewrite nth_error_map.
  assert (G : forall k, k < length sig + 1 -> nth_error ret k = Some (Csum (firstn k sig))).
  { intros k Hk. unfold ret. rewrite cumsum_nth by (cbn; lia). rewrite firstn_cons, Csum_cons. f_equal. cring. }
  assert (Ec : nth_error (combine (skipn N ret) (firstn (length ret - N) ret)) i = Some (Csum (firstn (N + i) sig), Csum (firstn i sig))).
  { assert (Gc : forall (x y : list C) k u w, nth_error x k = Some u -> nth_error y k = Some w -> nth_error (combine x y) k = Some (u, w)).
    { clear. induction x as [|a x IH]; intros [|b y] [|k] u w Hu Hw; cbn in *; try discriminate; [congruence|now apply IH]. }
    apply Gc; [rewrite nth_error_skipn'; apply G; lia|rewrite nth_error_firstn_lt by lia; apply G; lia]. }
  rewrite Ec. cbn [option_map fst snd]. f_equal. unfold window_mean. rewrite <- INR_IZR_INZ. f_equal.
  assert (Es : firstn (N + i) sig = firstn i sig ++ firstn N (skipn i sig)).
  { rewrite <- (firstn_skipn i (firstn (N + i) sig)). f_equal; [rewrite firstn_firstn; f_equal; lia|].
    rewrite skipn_firstn_comm. f_equal. lia. }
  rewrite Es, Csum_app. cring.
Qed.
Lemma mavg_zero (sig : list C) : moving_average sig 0 = Err ValueError.
Proof.
  unfold moving_average. cbn [Z.opp]. unfold pyslice_from, pyslice_to. rewrite !clipz_pos by lia. cbn [Z.to_nat skipn firstn].
  rewrite cumsum_length. cbn. reflexivity.
Qed.

(** ** C72 *)
Lemma dump_mid {A} (e : list A) n : 1 <= n -> 2 * n <= length e -> dump_edges e (Z.of_nat n) = firstn (length e - 2 * n) (skipn n e).
Proof.
  intros H1 H2. unfold dump_edges, pyslice. rewrite (clipz_pos _ (Z.of_nat n)) by lia. unfold clipz.
  destruct (Z.ltb_spec (- Z.of_nat n) 0); [|lia]. rewrite Nat2Z.id. f_equal. lia.
Qed.
Lemma dump_0 {A} (e : list A) : dump_edges e 0 = [].
Proof. unfold dump_edges, pyslice. cbn [Z.opp]. rewrite clipz_pos by lia. reflexivity. Qed.

(** ** C73 *)
Lemma fold_or {A} (f : A -> bool) l b : fold_left (fun b i => b || f i) l b = b || existsb f l.
Proof. revert b. induction l as [|x l IH]; intros b; cbn; [now rewrite orb_false_r|]. rewrite IH. now rewrite orb_assoc. Qed.

Lemma fpi_nth nf fl os sq rat k : k < fl * nf * os ->
  nth_error (find_pilot_idx nf fl os (Z.of_nat sq) (Z.of_nat rat)) k =
  Some (existsb (fun i => fpi_seq (Z.of_nat fl) (Z.of_nat os) (Z.of_nat sq) (Z.of_nat i) (Z.of_nat k)) (seq 0 nf)
     || existsb (fun i => fpi_ph (Z.of_nat fl) (Z.of_nat os) (Z.of_nat sq) (Z.of_nat rat) (Z.of_nat i) (Z.of_nat k)) (seq 0 nf)).
Proof.
  intros Hk. unfold find_pilot_idx. rewrite map_map. rewrite nth_error_map_seq by assumption. cbn [Nat.add]. f_equal.
  rewrite !fold_or. destruct (Z.ltb_spec (Z.of_nat k) 0); [lia|]. cbn [orb].
  assert (G : forall (f : Z -> bool) l, existsb f (map Z.of_nat l) = existsb (fun i => f (Z.of_nat i)) l).
  { intros f l. induction l; cbn; congruence. }
  now rewrite !G.
Qed.

(** a frame is met at one place only *)
Lemma fpi_seq_spec fl os sq i k : 0 < os -> sq <= fl ->
  fpi_seq (Z.of_nat fl) (Z.of_nat os) (Z.of_nat sq) (Z.of_nat i) (Z.of_nat k) = true <-> fl * os * i <= k < fl * os * i + sq * os.
Proof. intros Ho Hs. unfold fpi_seq. rewrite andb_true_iff, Z.leb_le, Z.ltb_lt. lia. Qed.
Lemma fpi_ph_spec fl os sq rat i k : 0 < os -> 0 < rat ->
  fpi_ph (Z.of_nat fl) (Z.of_nat os) (Z.of_nat sq) (Z.of_nat rat) (Z.of_nat i) (Z.of_nat k) = true <->
  fl * os * i + sq * os <= k < fl * os * i + fl * os /\ (k - sq * os - fl * os * i) mod (rat * os) <= 1.
Proof.
  intros Ho Hr. unfold fpi_ph. rewrite !andb_true_iff, orb_true_iff, !Z.eqb_eq, Z.leb_le, Z.ltb_lt.
  split.
  - intros [[H1 H2] H3]. assert (Hge : fl * os * i + sq * os <= k) by lia. split; [lia|].
    replace (Z.of_nat k - Z.of_nat sq * Z.of_nat os - Z.of_nat fl * Z.of_nat os * Z.of_nat i)%Z with (Z.of_nat (k - sq * os - fl * os * i)) in H1 by lia.
    rewrite <- Nat2Z.inj_mul, <- Nat2Z.inj_mod in H1. lia.
  - intros [H1 H2]. 
    replace (Z.of_nat k - Z.of_nat sq * Z.of_nat os - Z.of_nat fl * Z.of_nat os * Z.of_nat i)%Z with (Z.of_nat (k - sq * os - fl * os * i)) by lia.
    rewrite <- Nat2Z.inj_mul, <- Nat2Z.inj_mod. lia.
Qed.

Lemma frame_pos fl os k : 0 < fl -> 0 < os -> let f := k / (fl * os) in let p := (k / os) mod fl in
  k = fl * os * f + os * p + k mod os /\ p < fl /\ k mod os < os.
Proof.
  intros Hf Ho. cbn zeta. split; [|split; apply Nat.mod_upper_bound; lia].
  rewrite (Nat.mul_comm fl os), <- Nat.div_div by lia.
  pose proof (Nat.div_mod k os ltac:(lia)). pose proof (Nat.div_mod (k / os) fl ltac:(lia)).
  set (q := k / os) in *. set (r := k mod os) in *. set (qq := q / fl) in *. set (rr := q mod fl) in *. clearbody q r qq rr. nia.
Qed.

Lemma fpi_os2 nf fl sq rat k : 0 < fl -> 0 < rat -> sq <= fl -> k < fl * nf * 2 ->
  exists b, nth_error (find_pilot_idx nf fl 2 (Z.of_nat sq) (Z.of_nat rat)) k = Some b /\ (b = true <-> pilot_pos sq rat ((k / 2) mod fl)).
Proof.
  intros Hf Hr Hs Hk. rewrite fpi_nth by assumption. eexists. split; [reflexivity|].
  rewrite orb_true_iff, !existsb_exists.
  destruct (frame_pos fl 2 k Hf ltac:(lia)) as (Ek & Hp & Hm). set (f := k / (fl * 2)) in *. set (p := (k / 2) mod fl) in *. set (r := k mod 2) in *.
  assert (Hfn : f < nf) by (clearbody f p r; nia).
  assert (Huniq : forall i, fl * 2 * i <= k < fl * 2 * i + fl * 2 -> i = f) by (clearbody f p r; intros i Hi; nia).
  assert (Hmod : sq <= p -> (k - sq * 2 - fl * 2 * f) mod (rat * 2) <= 1 <-> Nat.divide rat (p - sq)).
  { intros Hle. replace (k - sq * 2 - fl * 2 * f) with ((p - sq) * 2 + r) by (clearbody f p r; nia).
    pose proof (Nat.div_mod (p - sq) rat ltac:(lia)) as Hd. pose proof (Nat.mod_upper_bound (p - sq) rat ltac:(lia)) as Hb.
    set (u := (p - sq) / rat) in *. set (w := (p - sq) mod rat) in *.
    assert (Ew : ((p - sq) * 2 + r) mod (rat * 2) = w * 2 + r).
    { symmetry. apply Nat.mod_unique with u; nia. }
    rewrite Ew. split.
    - intros Hw. apply Nat.mod_divide; [lia|]. fold w. lia.
    - intros Hd'. apply Nat.mod_divide in Hd'; [|lia]. fold w in Hd'. lia. }
  split.
  - intros [(i & Hi & H)|(i & Hi & H)].
    + apply fpi_seq_spec in H; [|lia|assumption]. assert (i = f) by (apply Huniq; lia). subst i. left. clear Hmod Huniq Hr Hk Hfn. clearbody f p r. lia.
    + apply fpi_ph_spec in H; [|lia|lia]. destruct H as [H1 H2]. assert (i = f) by (apply Huniq; clear - H1; lia). subst i.
      assert (sq <= p) by (clearbody f p r; nia). right. split; [lia|]. split; [assumption|]. now apply Hmod.
  - intros [H|(_ & H1 & H2)].
    + left. exists f. split; [apply in_seq; lia|]. apply fpi_seq_spec; [lia|assumption|]. clearbody f p r; nia.
    + right. exists f. split; [apply in_seq; lia|]. apply fpi_ph_spec; [lia|lia|]. split; [clearbody f p r; nia|]. now apply Hmod.
Qed.

Lemma fpi_os1 nf fl sq rat : 1 <= nf -> 2 <= rat -> sq + 1 < fl ->
  nth_error (find_pilot_idx nf fl 1 (Z.of_nat sq) (Z.of_nat rat)) (sq + 1) = Some true /\ ~ pilot_pos sq rat (sq + 1).
Proof.
  intros Hn Hr Hs. split.
  - rewrite fpi_nth by nia. f_equal. apply orb_true_iff. right. apply existsb_exists. exists 0. split; [apply in_seq; lia|].
    apply fpi_ph_spec; [lia|lia|]. split; [lia|]. replace (sq + 1 - sq * 1 - fl * 1 * 0) with 1 by lia. rewrite Nat.mod_small; lia.
  - intros [H|(_ & _ & Hd)]; [lia|]. replace (sq + 1 - sq) with 1 in Hd by lia. apply Nat.divide_1_r in Hd. lia.
Qed.
Lemma fpi_os3 nf fl os sq rat : 1 <= nf -> 1 <= rat -> sq < fl -> 3 <= os ->
  nth_error (find_pilot_idx nf fl os (Z.of_nat sq) (Z.of_nat rat)) (sq * os + 2) = Some false /\ pilot_pos sq rat (((sq * os + 2) / os) mod fl).
Proof.
  intros Hn Hr Hs Ho. split.
  - assert (Hlt : sq * os + os <= fl * os) by nia.
    assert (Hk : sq * os + 2 < fl * nf * os) by (assert (fl * os * 1 <= fl * os * nf) by (apply Nat.mul_le_mono_l; lia); nia).
    rewrite fpi_nth by assumption. f_equal. apply orb_false_iff. split.
    + apply not_true_iff_false. intros H. apply existsb_exists in H as (i & Hi & H). apply fpi_seq_spec in H; [|lia|lia].
      destruct i as [|i]; [lia|]. assert (fl * os <= fl * os * S i) by nia. lia.
    + apply not_true_iff_false. intros H. apply existsb_exists in H as (i & Hi & H). apply fpi_ph_spec in H; [|lia|lia]. destruct H as [H1 H2].
      assert (i = 0) by (destruct i as [|i]; [reflexivity|]; assert (fl * os <= fl * os * S i) by nia; lia). subst i. replace (sq * os + 2 - sq * os - fl * os * 0) with 2 in H2 by lia.
      rewrite Nat.mod_small in H2; nia.
  - right. assert (E : (sq * os + 2) / os = sq) by (symmetry; apply Nat.div_unique with 2; lia). rewrite E, Nat.mod_small by lia.
    split; [lia|]. split; [lia|]. rewrite Nat.sub_diag. apply Nat.divide_0_r.
Qed.
