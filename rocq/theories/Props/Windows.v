(** Property theorems C45-C47, C72-C74, C76: windows, index helpers, pattern tables, workers. *)
From Coq Require Import List ZArith Bool Arith Lia Reals Lra.
From Verif Require Import Common.Py Common.Cplx Model.Windows Model.Lut Model.Worker Spec.Win Spec.LutSpec Spec.Service Spec.Frames
  Proofs.WindowsP Proofs.LutP Proofs.WorkerP.
Import ListNotations.

(** C45: the frames of segment_axis.  Holds for 'cut' and 'pad'; for 'wrap' as long as a frame is at
    most twice the array; an empty array trips an internal assertion *)
Theorem C45_segment_partial : forall {A} (a : list A) (len overlap : nat) (v : A), overlap < len -> 1 <= length a ->
  let hop := len - overlap in
  (len <= length a -> exists out, segment_axis a (Z.of_nat len) (Z.of_nat overlap) Cut v = Ok out /\
     frames_of (nth_error a) (n_cut (length a) len hop) len hop out) /\
  (length a < len -> segment_axis a (Z.of_nat len) (Z.of_nat overlap) Cut v = Err ValueError) /\
  (exists out, segment_axis a (Z.of_nat len) (Z.of_nat overlap) Pad v = Ok out /\
     frames_of (padded v a) (n_cover (length a) len hop) len hop out) /\
  (len <= 2 * length a -> exists out, segment_axis a (Z.of_nat len) (Z.of_nat overlap) Wrap v = Ok out /\
     frames_of (cyc a) (n_cover (length a) len hop) len hop out).
Proof.
  intros A a len ov v Hov Hl hop. repeat split.
  - intros H. now apply seg_cut.
  - intros H. rewrite seg_cut_short by assumption. destruct (Nat.eqb_spec (length a) 0); [lia|reflexivity].
  - now apply seg_pad.
  - intros H. now apply seg_wrap.
Qed.
Print Assumptions C45_segment_partial.
Theorem C45_invalid : forall {A} (a : list A) (len overlap : Z) em v, (len <= overlap \/ overlap < 0 \/ len <= 0)%Z ->
  segment_axis a len overlap em v = Err ValueError.
Proof. exact @seg_invalid. Qed.
Print Assumptions C45_invalid.
(** the frame count is the number of hops that fit, resp. are needed to cover every sample *)
Theorem C45_counts : forall l len hop, 0 < hop -> len <= l ->
  (let n := n_cut l len hop in len + (n - 1) * hop <= l /\ l < len + n * hop) /\
  (let n := n_cover l len hop in l <= len + (n - 1) * hop /\ (n = 1 \/ len + (n - 2) * hop < l)).
Proof.
  intros l len hop Hh Hl. unfold n_cut, n_cover.
  pose proof (Nat.div_mod (l - len) hop ltac:(lia)) as H1. pose proof (Nat.mod_upper_bound (l - len) hop ltac:(lia)) as H2.
  pose proof (Nat.div_mod (l - len + hop - 1) hop ltac:(lia)) as H3. pose proof (Nat.mod_upper_bound (l - len + hop - 1) hop ltac:(lia)) as H4.
  revert H1 H2 H3 H4. generalize ((l - len) mod hop) ((l - len + hop - 1) mod hop) ((l - len) / hop) ((l - len + hop - 1) / hop).
  intros r1 r2 q1 q2 H1 H2 H3 H4. cbn zeta. replace (1 + q1 - 1) with q1 by lia. replace (1 + q2 - 1) with q2 by lia.
  split; [nia|]. split; [nia|]. destruct q2 as [|q2]; [now left|right]. replace (1 + S q2 - 2) with q2 by lia. nia.
Qed.
Print Assumptions C45_counts.
(** three samples cannot be continued cyclically to a frame of seven: the code raises instead *)
Theorem C45_wrap_refuted : exists (a : list nat), 1 <= length a /\
  segment_axis a 7 0 Wrap 0 = Err ValueError /\ ~ exists out, segment_axis a 7 0 Wrap 0 = Ok out /\ frames_of (cyc a) 1 7 7 out.
Proof. exists [1; 2; 3]. split; [cbn; lia|]. split; [reflexivity|]. intros (out & E & _). discriminate. Qed.
Print Assumptions C45_wrap_refuted.
Example C45_cases :
  segment_axis [0; 1; 2; 3; 4; 5; 6; 7; 8; 9] 4 2 Cut 99 = Ok [[0; 1; 2; 3]; [2; 3; 4; 5]; [4; 5; 6; 7]; [6; 7; 8; 9]] /\
  segment_axis [0; 1; 2; 3; 4; 5; 6] 4 1 Cut 99 = Ok [[0; 1; 2; 3]; [3; 4; 5; 6]] /\
  segment_axis [0; 1; 2; 3; 4; 5; 6; 7] 4 1 Cut 99 = Ok [[0; 1; 2; 3]; [3; 4; 5; 6]] /\
  segment_axis [0; 1; 2; 3; 4; 5; 6; 7] 4 1 Pad 99 = Ok [[0; 1; 2; 3]; [3; 4; 5; 6]; [6; 7; 99; 99]] /\
  segment_axis [0; 1; 2; 3; 4; 5; 6; 7] 4 1 Wrap 99 = Ok [[0; 1; 2; 3]; [3; 4; 5; 6]; [6; 7; 0; 1]].
Proof. repeat split. Qed.

(** C46: windows; None stands for an element outside the buffer *)
Theorem C46_window_partial : forall {A} (data : list A) size,
  (size <= length data + 1 -> exists out, rolling_window data size false = Ok out /\ length out = length data + 1 - size /\
     forall i, i < length data + 1 - size -> nth_error out i = Some (map Some (firstn size (skipn i data)))) /\
  (length data + 1 < size -> rolling_window data size false = Err ValueError) /\
  (size <= length data + 1 -> exists out, rolling_window data size true = Ok out /\ length out = length data /\
     forall i, i < length data -> exists row, nth_error out i = Some row /\ length row = size /\
       forall j, j < size -> nth_error row j = Some (cyc data (i + j)) /\ cyc data (i + j) <> None).
Proof. intros A data size. split; [apply roll_plain|]. split; [apply roll_plain_err|apply roll_wrap]. Qed.
Print Assumptions C46_window_partial.
(** with wrap and any size beyond len+1 the returned view reaches outside the buffer *)
Theorem C46_bounds_refuted : forall {A} (data : list A) size, 1 <= length data -> length data + 1 < size ->
  exists out row, rolling_window data size true = Ok out /\ nth_error out (length data - 1) = Some row /\ nth_error row (size - 1) = Some None.
Proof. exact @roll_wrap_oob. Qed.
Print Assumptions C46_bounds_refuted.
Example C46_cases :
  rolling_window [1; 2; 3; 4] 2 false = Ok [[Some 1; Some 2]; [Some 2; Some 3]; [Some 3; Some 4]] /\
  rolling_window [1; 2; 3] 2 true = Ok [[Some 1; Some 2]; [Some 2; Some 3]; [Some 3; Some 1]] /\
  rolling_window [1; 2] 4 true = Ok [[Some 1; Some 2; Some 1; Some 2]; [Some 2; Some 1; Some 2; None]].
Proof. repeat split. Qed.

(** C47 *)
Theorem C47_moving_average : forall (sig : list C) N, 1 <= N -> N <= length sig + 1 ->
  exists out, moving_average sig (Z.of_nat N) = Ok out /\ length out = length sig + 1 - N /\
    forall i, i < length sig + 1 - N -> nth_error out i = Some (window_mean sig i N).
Proof. exact mavg. Qed.
Print Assumptions C47_moving_average.
Example C47_case : forall a b c d : R, exists m, moving_average [(a, b); (c, d); (a, d)] 2 = Ok m /\ length m = 2 /\
  nth_error m 0 = Some (((a + c) / 2)%R, ((b + d) / 2)%R).
Proof.
  intros. destruct (mavg [(a, b); (c, d); (a, d)] 2) as (m & E & L & H); [lia|cbn; lia|]. exists m. split; [exact E|]. split; [exact L|].
  rewrite (H 0) by (cbn; lia). unfold window_mean. cbn [firstn skipn]. rewrite !Csum_cons. change (Csum []) with C0. f_equal.
  unfold Cscal, Cadd, C0. cbn [fst snd INR]. f_equal; field.
Qed.

(** C72: right for N >= 1, everything is lost for N = 0 *)
Theorem C72_dump_partial : forall {A} (e : list A) n, 1 <= n -> 2 * n <= length e ->
  dump_edges e (Z.of_nat n) = firstn (length e - 2 * n) (skipn n e).
Proof. exact @dump_mid. Qed.
Print Assumptions C72_dump_partial.
Theorem C72_zero_refuted : forall {A} (e : list A), e <> [] -> dump_edges e 0 = [] /\ dump_edges e 0 <> firstn (length e - 2 * 0) (skipn 0 e).
Proof.
  intros A e He. rewrite dump_0. split; [reflexivity|]. cbn [Nat.mul skipn]. rewrite Nat.sub_0_r, firstn_all. congruence.
Qed.
Print Assumptions C72_zero_refuted.
Example C72_case : dump_edges [1; 2; 3; 4; 5; 6] 2 = [3; 4].
Proof. reflexivity. Qed.

(** C73: right for two samples per symbol *)
Theorem C73_marks_partial : forall nframes frame_len seq_len rat k, 0 < frame_len -> 0 < rat -> seq_len <= frame_len -> k < frame_len * nframes * 2 ->
  exists b, nth_error (find_pilot_idx nframes frame_len 2 (Z.of_nat seq_len) (Z.of_nat rat)) k = Some b /\
    (b = true <-> pilot_pos seq_len rat ((k / 2) mod frame_len)).
Proof. exact fpi_os2. Qed.
Print Assumptions C73_marks_partial.
(** one sample per symbol: the payload symbol after the first phase pilot is marked;
    three or more: the third sample of the first phase pilot is not *)
Theorem C73_oversampling_refuted :
  (forall nframes frame_len seq_len rat, 1 <= nframes -> 2 <= rat -> seq_len + 1 < frame_len ->
    nth_error (find_pilot_idx nframes frame_len 1 (Z.of_nat seq_len) (Z.of_nat rat)) (seq_len + 1) = Some true /\ ~ pilot_pos seq_len rat (seq_len + 1)) /\
  (forall nframes frame_len os seq_len rat, 1 <= nframes -> 1 <= rat -> seq_len < frame_len -> 3 <= os ->
    nth_error (find_pilot_idx nframes frame_len os (Z.of_nat seq_len) (Z.of_nat rat)) (seq_len * os + 2) = Some false /\
    pilot_pos seq_len rat (((seq_len * os + 2) / os) mod frame_len)).
Proof. split; [exact fpi_os1|exact fpi_os3]. Qed.
Print Assumptions C73_oversampling_refuted.
Example C73_cases :
  find_pilot_idx 1 5 2 1 2 = [true; true; true; true; false; false; true; true; false; false] /\
  find_pilot_idx 1 5 1 1 2 = [true; true; true; true; true] /\
  find_pilot_idx 1 3 3 1 1 = [true; true; true; true; true; false; true; true; false].
Proof. repeat split. Qed.

(** C74: the numbering of patterns.  Holds for memories up to one more than the sequence. *)
Theorem C74_patterns_partial : forall (sig ref : list R) N, sig <> [] -> ref <> [] -> N <= length sig + 1 ->
  exists ix nums, Forall2 (nearest_level ref) sig ix /\ find_sym_patterns sig ref N = Ok nums /\ length nums = length sig /\
    forall i, i < length sig -> exists ds, digits (length ref) N ds /\ (forall j, j < N -> nth_error ds j = cyc ix (i + j)) /\
       nth_error nums i = Some (ravel (length ref) ds).
Proof.
  intros sig ref N Hs Hr HN. destruct (nearest_levels_ok sig ref Hr) as (ix & E & L & F & F2).
  assert (H0 : 0 < length sig) by (destruct sig; [congruence|cbn; lia]).
  exists ix. eexists. split; [exact F2|]. unfold find_sym_patterns. rewrite E. cbn [bind]. rewrite pattern_numbers_ok by (rewrite ?L; assumption || lia).
  split; [reflexivity|]. split; [now rewrite map_length, seq_length|]. intros i Hi. exists (wind ix N i).
  split; [apply wind_digits; [lia|exact F]|]. split; [intros j Hj; apply wind_nth; lia|].
  rewrite ListX.nth_error_map_seq by lia. reflexivity.
Qed.
Print Assumptions C74_patterns_partial.
(** distinct patterns have distinct numbers, all M^N numbers occur *)
Theorem C74_injective : forall M N,
  (forall a b, digits M N a -> digits M N b -> ravel M a = ravel M b -> a = b) /\
  (forall a, digits M N a -> ravel M a < M ^ N) /\ (forall k, k < M ^ N -> exists ds, digits M N ds /\ ravel M ds = k).
Proof.
  intros M N. split; [|split; [|apply ravel_onto]].
  - intros a b [La Fa] [Lb Fb]. apply ravel_inj; congruence.
  - intros a [<- Fa]. now apply ravel_lt.
Qed.
Print Assumptions C74_injective.
(** the table of means of the observed errors, for real patterns *)
Theorem C74_table_partial : forall (tx rx ref : list C) mem mask, 0 < length tx -> length rx = length tx -> length mask = length tx -> ref <> [] ->
  mem <= length tx + 1 -> length (unique (map snd ref)) <= length (unique (map fst ref)) ->
  let LI := unique (map fst ref) in let LQ := unique (map snd ref) in
  exists ea iI iQ, cal_lut tx rx ref mem mask = Ok (ea, iI, iQ) /\ length ea = length LI ^ mem /\
    (forall ix ds, Forall2 (nearest_level LI) (map fst tx) ix -> digits (length LI) mem ds ->
       option_map fst (nth_error ea (ravel (length LI) ds)) =
         Some (mean0 (map (fun k => (fst (nth k tx C0) - fst (nth k rx C0))%R) (where_pattern mask ix mem ds)))) /\
    (forall ix ds, Forall2 (nearest_level LQ) (map snd tx) ix -> digits (length LQ) mem ds ->
       option_map snd (nth_error ea (ravel (length LQ) ds)) =
         Some (mean0 (map (fun k => (snd (nth k tx C0) - snd (nth k rx C0))%R) (where_pattern mask ix mem ds)))).
Proof. exact cal_lut_ok. Qed.
Print Assumptions C74_table_partial.
(** a longer memory: windows reach outside the data *)
Theorem C74_memory_refuted : forall M N l, 1 <= length l -> length l + 1 < N -> Forall (fun d => d < M) l -> exists e, pattern_numbers M N l = Err e.
Proof. exact pattern_oob. Qed.
Print Assumptions C74_memory_refuted.
Example C74_cases : pattern_numbers 2 3 [0; 1; 1; 0; 1] = Ok [3; 6; 5; 2; 5] /\ pattern_numbers 4 2 [3; 0; 2] = Ok [12; 2; 11] /\
  pattern_of [0; 1; 1; 0; 1] 3 0 = [1; 0; 1] /\ where_pattern [true; true; false; true; true] [0; 1; 1; 0; 1] 3 [1; 0; 1] = [0; 3].
Proof. repeat split. Qed.

(** C76: requests that can be unpacked and whose answer can be encoded are answered once each, in order *)
Theorem C76_replies_partial : forall {Msg Val Txt} (packable : Val -> bool) (ascii : Txt -> bool) (handler : list nat -> Msg -> outcome) rqs,
  Forall (benign packable ascii handler) rqs ->
  exists rs, run packable ascii handler rqs = map Some rs /\ Forall2 (wanted handler) rqs rs.
Proof.
  intros Msg Val Txt pk asc handler rqs H. induction H as [|rq rqs (h & m & -> & Hb) _ (rs & E & F)].
  - exists []. split; [reflexivity|constructor].
  - cbn [run]. unfold process. destruct (handler h m) as [v|t|] eqn:Eh; [rewrite Hb|rewrite Hb|destruct Hb].
    + exists (ROk v :: rs). cbn [map]. split; [now rewrite E|]. constructor; [|exact F]. exists h, m. rewrite Eh. auto.
    + exists (RErr t :: rs). cbn [map]. split; [now rewrite E|]. constructor; [|exact F]. exists h, m. rewrite Eh. auto.
Qed.
Print Assumptions C76_replies_partial.
(** never more than one reply per request, and no wrong one; after the first request that is not benign nothing is answered *)
Theorem C76_at_most_one : forall {Msg Val Txt} (packable : Val -> bool) (ascii : Txt -> bool) (handler : list nat -> Msg -> outcome) rqs,
  length (run packable ascii handler rqs) = length rqs /\
  (forall i rq r, nth_error rqs i = Some rq -> nth_error (run packable ascii handler rqs) i = Some (Some r) -> wanted handler rq r) /\
  (forall pre rq rest, rqs = pre ++ rq :: rest -> Forall (benign packable ascii handler) pre -> ~ benign packable ascii handler rq ->
     forall i, length pre <= i -> i < length rqs -> nth_error (run packable ascii handler rqs) i = Some None).
Proof. exact @at_most_one. Qed.
Print Assumptions C76_at_most_one.
(** an error text outside ascii: the requester waits forever and so does everybody after it *)
Theorem C76_reply_refuted : exists (handler : list nat -> nat -> @outcome nat (list nat)) rqs,
  let ascii t := forallb (fun c => c <? 128) t in
  run (fun _ => true) ascii handler rqs = [Some (ROk 7); None; None].
Proof.
  exists (fun h m => match m with 0 => Raises [228] | _ => Returns m end), [Some ([], 7); Some ([], 0); Some ([], 8)]. reflexivity.
Qed.
Print Assumptions C76_reply_refuted.
Example C76_case : run (fun v => v <? 100) (fun t => forallb (fun c => c <? 128) t)
  (fun h m => match h with [0] => Returns (m + 1) | [1] => Raises [m] | _ => Raises [63] end)
  [Some ([0], 4); Some ([1], 65); Some ([9], 9); Some ([0], 200); Some ([0], 1)] = [Some (ROk 5); Some (RErr [65]); Some (RErr [63]); None; None].
Proof. reflexivity. Qed.
