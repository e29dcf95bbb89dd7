(** Property theorems C28-C33: pilot frames. *)
From Coq Require Import List ZArith Bool Arith Lia.
From Verif Require Import Common.Py Model.Sync Model.Pilots Spec.Seq Spec.Frames Proofs.PilotP Proofs.PilotQ.
Import ListNotations.

(** C28: positions of pilots and data, and their numbers; rat = 0 stands for 0 and None *)
Theorem C28_partition : forall frame_len seq_len rat, seq_len <= frame_len ->
  ((rat = 0 \/ Nat.divide rat (frame_len - seq_len)) ->
   exists dat pil, cal_pilot_idx frame_len (Z.of_nat seq_len) (Z.of_nat rat) = Ok (dat, pil) /\
     length dat = frame_len /\ length pil = frame_len /\
     (forall k, k < frame_len -> exists b, nth_error pil k = Some b /\ nth_error dat k = Some (negb b) /\
                                 (b = true <-> pilot_pos seq_len rat k)) /\
     count_true pil = n_pilots frame_len seq_len rat /\ count_true dat = frame_len - n_pilots frame_len seq_len rat) /\
  (rat <> 0 -> ~ Nat.divide rat (frame_len - seq_len) ->
   cal_pilot_idx frame_len (Z.of_nat seq_len) (Z.of_nat rat) = Err ValueError).
Proof. exact c28. Qed.
Print Assumptions C28_partition.
Example C28_case : cal_pilot_idx 8 2 3 = Ok ([false; false; false; true; true; false; true; true], [true; true; true; false; false; true; false; false]).
Proof. reflexivity. Qed.
Example C28_case_error : cal_pilot_idx 9 2 3 = Err ValueError /\ cal_pilot_idx 4 2 0 = Ok ([false; false; true; true], [true; true; false; false]).
Proof. split; reflexivity. Qed.

(** C29: taking a freshly built signal of any number of frames apart gives the payload and the pilots *)
Theorem C29_inverse : forall {A} (junk : A) (genp gend : nat -> list (list A)) (frame_len seq_len rat nframes nmodes : nat) (repeat_data : bool),
  seq_len <= frame_len -> 0 < frame_len -> (rat = 0 \/ Nat.divide rat (frame_len - seq_len)) -> 1 <= nmodes -> 1 <= nframes ->
  well_shaped nmodes genp -> well_shaped nmodes gend ->
  let pilots := map (tile nframes) (genp (n_pilots frame_len seq_len rat)) in
  let ndat := frame_len - n_pilots frame_len seq_len rat in
  let payload := if repeat_data then map (tile nframes) (gend ndat) else gend (ndat * nframes) in
  exists s, pilot_new junk genp gend frame_len (Z.of_nat seq_len) (Z.of_nat rat) nframes nmodes repeat_data true = Ok s /\
    get_data s None = Ok payload /\ extract_pilots s None = Ok pilots /\ p_symbols s = payload /\ p_pilots s = pilots.
Proof.
  intros A junk genp gend fl sq rat n nm rd H1 H2 H3 H4 H5 H6 H7.
  destruct (pilot_new_ok junk genp gend fl sq rat n nm rd true H1 H2 H3 H4 H6 H7 (or_introl eq_refl)) as (s & E & _ & _ & Es & Ep & _ & G).
  exists s. destruct (G H5). auto.
Qed.
Print Assumptions C29_inverse.
(** two modes, two frames of 5 symbols; symbols are numbered *)
Example C29_case :
  let gen off n := [map (fun k => off + k) (seq 0 n); map (fun k => 10 + off + k) (seq 0 n)] in
  exists s, pilot_new 0 (gen 100) (gen 0) 5 1 2 2 2 false true = Ok s /\
    p_rows s = [[100; 101; 0; 102; 1; 100; 101; 2; 102; 3]; [110; 111; 10; 112; 11; 110; 111; 12; 112; 13]] /\
    get_data s None = Ok [[0; 1; 2; 3]; [10; 11; 12; 13]].
Proof. eexists. split; [reflexivity|]. split; reflexivity. Qed.

(** C30: pilots of selected frames *)
Theorem C30_pilots_partial : forall {A} (s : psig A) N dat pil frames,
  mask_signal s N dat pil -> frames <> [] -> Forall (fun f => f < N / p_frame_len s) frames ->
  extract_pilots s (Some (map Z.of_nat frames)) =
    Ok (map (fun row => flat_map (fun f => mask_sel pil (frame_of (p_frame_len s) f row)) frames) (p_rows s)).
Proof. exact @c30_extract. Qed.
Print Assumptions C30_pilots_partial.
Theorem C30_pilots_reject_partial : forall {A} (s : psig A) n dat pil frames, mask_signal s (n * p_frame_len s) dat pil -> In true pil ->
  (exists f, In f frames /\ (Z.of_nat n <= f)%Z) -> exists e, extract_pilots s (Some frames) = Err e.
Proof. exact @c30_reject. Qed.
Print Assumptions C30_pilots_reject_partial.
Theorem C30_single_frame_partial : forall {A} (s : psig A) N dat pil, mask_signal s N dat pil -> p_frame_len s = N ->
  get_data s (Some [0%Z]) = Ok (map (mask_sel dat) (p_rows s)).
Proof. exact @c30_get_zero. Qed.
Print Assumptions C30_single_frame_partial.

(** the payload of any frame but the first cannot be obtained, that of the first only from a
    one-frame signal; cal_gmi with its default frames therefore raises on every longer signal *)
Theorem C30_get_data_refuted : forall {A} (s : psig A) N dat pil, mask_signal s N dat pil -> 2 <= p_frame_len s ->
  (forall frames, (exists f, In f frames /\ (1 <= f)%Z) -> exists e, get_data s (Some frames) = Err e) /\
  (p_frame_len s < N -> get_data s (Some [0%Z]) = Err IndexError).
Proof. intros A s N dat pil H1 H2. split; [exact (fun fs => c30_get_err s N dat pil fs H1 H2)|exact (c30_get_zero_long s N dat pil H1)]. Qed.
Print Assumptions C30_get_data_refuted.
Theorem C30_cal_gmi_refuted : forall {A} (s : psig A) N dat pil, mask_signal s N dat pil -> 2 <= p_frame_len s -> 2 * p_frame_len s <= N ->
  exists e, gmi_data s None = Err e.
Proof. exact @c30_gmi. Qed.
Print Assumptions C30_cal_gmi_refuted.
(** such signals exist: every freshly built one *)
Theorem C30_signals_exist : forall {A} (s : psig A) frame_len seq_len rat, p_os s = 1 -> p_frame_len s = frame_len -> 0 < frame_len ->
  seq_len <= frame_len -> (rat = 0 \/ Nat.divide rat (frame_len - seq_len)) ->
  p_rows s <> [] -> (exists n, rect (p_rows s) (n * frame_len)) ->
  forall dat pil, cal_pilot_idx frame_len (Z.of_nat seq_len) (Z.of_nat rat) = Ok (dat, pil) ->
  p_idx_dat s = IMask dat -> p_idx_pil s = IMask pil -> exists N, mask_signal s N dat pil.
Proof.
  intros A s fl sq rat Hos Hfl H0 Hs Hr Hne (n & HR) dat pil E Hd Hp. exists (n * fl).
  destruct (c28 fl sq rat Hs) as [G _]. destruct (G Hr) as (d & p & E' & Ld & Lp & _). rewrite E in E'.
  assert (dat = d) by congruence. assert (pil = p) by congruence. subst. repeat split; auto.
Qed.
Print Assumptions C30_signals_exist.
Example C30_case :
  let gen off n := [map (fun k => off + k) (seq 0 n)] in
  exists s, pilot_new 0 (gen 100) (gen 0) 5 1 2 3 1 false true = Ok s /\
    extract_pilots s (Some [2%Z; 0%Z]) = Ok [[100; 101; 102; 100; 101; 102]] /\
    get_data s None = Ok [[0; 1; 2; 3; 4; 5]] /\ get_data s (Some [1%Z]) = Err ValueError /\
    get_data s (Some [0%Z]) = Err IndexError /\ extract_pilots s (Some [4%Z]) = Err AssertionError.
Proof. eexists. split; [reflexivity|]. repeat split; reflexivity. Qed.

(** C31: repeated pilots, any data flag *)
Theorem C31_repeated_partial : forall {A} (junk : A) (genp gend : nat -> list (list A)) (frame_len seq_len rat nframes nmodes : nat) (repeat_data repeat_pilots : bool),
  seq_len <= frame_len -> 0 < frame_len -> (rat = 0 \/ Nat.divide rat (frame_len - seq_len)) -> 1 <= nmodes ->
  well_shaped nmodes genp -> well_shaped nmodes gend -> (repeat_pilots = true \/ nframes = 1) ->
  exists s, pilot_new junk genp gend frame_len (Z.of_nat seq_len) (Z.of_nat rat) nframes nmodes repeat_data repeat_pilots = Ok s /\
    length (p_rows s) = nmodes /\ rect (p_rows s) (nframes * frame_len).
Proof.
  intros A junk genp gend fl sq rat n nm rd rp H1 H2 H3 H4 H5 H6 H7.
  destruct (pilot_new_ok junk genp gend fl sq rat n nm rd rp H1 H2 H3 H4 H5 H6 H7) as (s & E & L & R & _). eauto.
Qed.
Print Assumptions C31_repeated_partial.
Theorem C31_non_repeated_pilots_refuted : forall {A} (junk : A) (genp gend : nat -> list (list A)) (frame_len seq_len rat nframes nmodes : nat) (repeat_data : bool),
  seq_len <= frame_len -> (rat = 0 \/ Nat.divide rat (frame_len - seq_len)) -> 1 <= nmodes -> well_shaped nmodes genp ->
  2 <= nframes -> 2 <= n_pilots frame_len seq_len rat ->
  pilot_new junk genp gend frame_len (Z.of_nat seq_len) (Z.of_nat rat) nframes nmodes repeat_data false = Err ValueError.
Proof. exact @c31_bad. Qed.
Print Assumptions C31_non_repeated_pilots_refuted.
Example C31_case : let gen n := [repeat 7 n] in
  pilot_new 0 gen gen 6 2 2 2 1 true false = Err ValueError /\
  (exists s, pilot_new 0 gen gen 6 2 2 2 1 true true = Ok s).
Proof. split; [reflexivity|]. eexists. reflexivity. Qed.

(** C32: the regular pattern.  The conversions of plain arrays to signal objects are assumed to
    keep the values. *)
Theorem C32_regular_partial : forall {A} (junk : A) genp conv_pil conv_pay dflt payload pay_sig frame_len seq_len rat N pilots p_sig expl kw n,
  seq_len <= frame_len -> 0 < frame_len -> (rat = 0 \/ Nat.divide rat (frame_len - seq_len)) -> 1 <= length payload -> 1 <= n ->
  rect payload N -> frame_len - n_pilots frame_len seq_len rat <= N ->
  (length pilots = length payload \/ length pilots = 1) -> rect pilots (n_pilots frame_len seq_len rat) ->
  (forall x, conv_pil x = Ok x) -> (forall m x, conv_pay m x = Ok x) ->
  (kw = None \/ match expl with Some e => e | None => dflt end = None) ->
  let pil := if length pilots =? length payload then pilots else concat (repeat pilots (length payload)) in
  let pay := map (firstn (frame_len - n_pilots frame_len seq_len rat)) payload in
  exists s, fst (from_symbol_array junk genp conv_pil conv_pay dflt payload pay_sig frame_len (Z.of_nat seq_len) (Z.of_nat rat) None
                   (Some (pilots, p_sig)) expl kw n false) = Ok s /\
    length (p_rows s) = length payload /\ rect (p_rows s) (n * frame_len) /\
    p_symbols s = pay /\ p_pilots s = pil /\
    get_data s None = Ok (map (tile n) pay) /\ extract_pilots s None = Ok (map (tile n) pil).
Proof. exact @c32_regular. Qed.
Print Assumptions C32_regular_partial.
Theorem C32_whole_frame_partial : forall {A} (junk : A) genp conv_pil conv_pay dflt payload pay_sig frame_len seq_len rat pilots expl kw n,
  seq_len <= frame_len -> 0 < frame_len -> (rat = 0 \/ Nat.divide rat (frame_len - seq_len)) -> 1 <= length payload ->
  rect payload frame_len ->
  (forall x, conv_pil x = Ok x) -> (forall m x, conv_pay m x = Ok x) ->
  (kw = None \/ match expl with Some e => e | None => dflt end = None) ->
  exists s, fst (from_symbol_array junk genp conv_pil conv_pay dflt payload pay_sig frame_len (Z.of_nat seq_len) (Z.of_nat rat) None
                   pilots expl kw n true) = Ok s /\ p_rows s = map (tile n) payload.
Proof. exact @c32_frame. Qed.
Print Assumptions C32_whole_frame_partial.

(** with pilot_idx index 0 is not counted.  Position 0 a pilot: generated pilots are one short and
    the call raises; given pilots build a signal whose payload cannot be read.  Position 0 data:
    the payload is one short and the call raises. *)
Theorem C32_generated_pilots_refuted : forall {A} (junk : A) genp conv_pil conv_pay dflt payload pay_sig frame_len seq_len rat pilot_idx expl kw n pidx nmodes,
  length payload = nmodes -> 1 <= nmodes -> well_shaped nmodes genp ->
  set_all pilot_idx (repeat false frame_len) = Ok (true :: pidx) -> 2 <= count_true pidx ->
  exists e, fst (from_symbol_array junk genp conv_pil conv_pay dflt payload pay_sig frame_len seq_len rat (Some pilot_idx) None expl kw n false) = Err e.
Proof. exact @c32_idx_generated. Qed.
Print Assumptions C32_generated_pilots_refuted.
Theorem C32_data_first_refuted : forall {A} (junk : A) genp conv_pil conv_pay dflt payload frame_len seq_len rat pilot_idx pilots expl kw n pidx N,
  1 <= length payload -> rect payload N ->
  set_all pilot_idx (repeat false frame_len) = Ok (false :: pidx) -> 2 <= count_true (map negb pidx) ->
  exists e, fst (from_symbol_array junk genp conv_pil conv_pay dflt payload true frame_len seq_len rat (Some pilot_idx) pilots expl kw n false) = Err e.
Proof. exact @c32_idx_payload. Qed.
Print Assumptions C32_data_first_refuted.
Theorem C32_get_data_refuted : forall {A} (s : psig A) l N, p_rows s <> [] -> rect (p_rows s) N -> p_os s = 1 -> 0 < p_frame_len s -> p_frame_len s <= N ->
  p_idx_dat s = IInts l -> length l <> p_frame_len s -> length l <> 1 -> get_data s None = Err ValueError.
Proof. exact @c32_idx_get. Qed.
Print Assumptions C32_get_data_refuted.

Example C32_case : let id x := Ok x in let gen n := [repeat 9 n] in
  (exists s, fst (from_symbol_array 0 gen id (fun _ => id) None [[1; 2; 3; 4; 5]] true 5 1 2 None (Some ([[7; 8; 9]], true)) None (Some 4) 2 false) = Ok s /\
     p_rows s = [[7; 8; 1; 9; 2; 7; 8; 1; 9; 2]] /\ get_data s None = Ok [[1; 2; 1; 2]]) /\
  fst (from_symbol_array 0 gen id (fun _ => id) None [[1; 2; 3; 4; 5]] true 5 1 2 (Some [0; 1; 3]%Z) None None (Some 4) 2 false) = Err ValueError /\
  (exists s, fst (from_symbol_array 0 gen id (fun _ => id) None [[1; 2; 3; 4; 5]] true 5 1 2 (Some [0; 1; 3]%Z) (Some ([[7; 8; 9]], true)) None (Some 4) 2 false) = Ok s /\
     p_rows s = [[7; 8; 1; 9; 2; 7; 8; 1; 9; 2]] /\ get_data s None = Err ValueError).
Proof. cbn zeta. split; [|split; [reflexivity|]]; eexists; (split; [reflexivity|]); split; reflexivity. Qed.

(** C33: histories in which every call passes its own payload_kwargs or no M *)
Theorem C33_no_memory_partial : forall {A} (junk : A) genp conv_pil conv_pay hist (a : fsa_args A), Forall leaves_default hist ->
  fsa_call junk genp conv_pil conv_pay (fsa_state junk genp conv_pil conv_pay hist) a = fsa_call junk genp conv_pil conv_pay None a.
Proof. intros A junk genp cp cd hist a H. now rewrite (c33_state junk genp cp cd hist H). Qed.
Print Assumptions C33_no_memory_partial.
(** every successful call that passes M and no payload_kwargs fails when repeated *)
Theorem C33_repeated_call_refuted : forall {A} (junk : A) genp conv_pil conv_pay a (s : psig A) m, a_explicit a = None -> a_kw_m a = Some m ->
  fst (fsa_call junk genp conv_pil conv_pay None a) = Ok s ->
  fst (fsa_call junk genp conv_pil conv_pay (fsa_state junk genp conv_pil conv_pay [a]) a) = Err AssertionError.
Proof. exact @c33_second. Qed.
Print Assumptions C33_repeated_call_refuted.
(** and a later call without M uses the one left behind: the conversion here returns M itself *)
Theorem C33_stale_order_refuted : let id x := Ok x in let gen n := [repeat 9 n] in
  let tell M (x : list (list nat)) := match M with Some m => Ok [[m; m]] | None => Err TypeError end in
  let a1 := mk_args [[1; 2]] false 4 2 0 None (Some ([[7; 8]], true)) None (Some 16) 1 false in
  let a2 := mk_args [[1; 2]] false 4 2 0 None (Some ([[7; 8]], true)) None None 1 false in
  fst (fsa_call 0 gen id tell None a2) = Err TypeError /\
  (exists s, fst (fsa_call 0 gen id tell (fsa_state 0 gen id tell [a1]) a2) = Ok s /\ p_symbols s = [[16; 16]]).
Proof. cbn zeta. split; [reflexivity|]. eexists. split; reflexivity. Qed.
Print Assumptions C33_stale_order_refuted.
Example C33_case : let id x := Ok x in let gen n := [repeat 9 n] in
  let a := mk_args [[1; 2]] false 4 2 0 None (Some ([[7; 8]], true)) (Some None) (Some 16) 1 false in
  leaves_default a /\ (exists s, fst (fsa_call 0 gen id (fun _ => id) (fsa_state 0 gen id (fun _ => id) [a; a]) a) = Ok s /\ p_rows s = [[7; 8; 1; 2]]).
Proof. cbn zeta. split; [left; discriminate|]. eexists. split; reflexivity. Qed.
