(** Properties of the signal classes fed by bit patterns or bare symbols: C112-C115. *)
From Coq Require Import List NArith ZArith Arith Bool Reals.
From Verif Require Import Common.Py Common.Cplx Model.Helpers Model.Prbs Model.Sync Model.Quality Model.Classes
  Spec.BitSeq Spec.BertS Spec.Metrics Spec.Seq Proofs.BertP Proofs.BertQ Proofs.BertR Proofs.SymP.
Import ListNotations.

(** ** C112: balance and correlation of the bit patterns *)
Theorem C112_balance order s L out j : In order prbs_orders -> (0 < s < 2 ^ N.of_nat order)%N ->
  make_prbs_extXOR (N.of_nat order) L (SeedInt s) = Ok out -> let P := 2 ^ order - 1 in j + P <= L ->
  occurrences (fun i => nth (j + i) out false) P = 2 ^ (order - 1).
Proof. exact (balance order s L out j). Qed.
Print Assumptions C112_balance.
Theorem C112_pairs order s L out j d : In order prbs_orders -> (0 < s < 2 ^ N.of_nat order)%N ->
  make_prbs_extXOR (N.of_nat order) L (SeedInt s) = Ok out -> let P := 2 ^ order - 1 in j + d + P <= L -> ~ Nat.divide P d ->
  let pairs x y := occurrences (fun i => Bool.eqb (nth (j + i) out false) x && Bool.eqb (nth (j + d + i) out false) y) P in
  pairs true true = 2 ^ (order - 2) /\ pairs true false = 2 ^ (order - 2) /\ pairs false true = 2 ^ (order - 2) /\ pairs false false = 2 ^ (order - 2) - 1.
Proof. exact (autocorrelation order s L out j d). Qed.
Print Assumptions C112_pairs.
Example C112_case : exists out, make_prbs_extXOR 7 300 (SeedInt 5) = Ok out /\
  occurrences (fun i => nth (11 + i) out false) 127 = 64 /\
  occurrences (fun i => Bool.eqb (nth (11 + i) out false) true && Bool.eqb (nth (11 + 40 + i) out false) true) 127 = 32 /\
  occurrences (fun i => Bool.eqb (nth (11 + i) out false) false && Bool.eqb (nth (11 + 40 + i) out false) false) 127 = 31.
Proof. eexists. split; [vm_compute; reflexivity|]. vm_compute. repeat split; reflexivity. Qed.

(** ** C113: the QPSK signal of a bit error rate tester *)
Theorem C113_samples_partial drawsI drawsQ n nmodes orders shifts invert :
  nmodes <= 2 -> nmodes <= length (fst orders) -> nmodes <= length (snd orders) ->
  (forall i o, i < nmodes -> nth_error (fst orders) i = Some o \/ nth_error (snd orders) i = Some o -> In (N.to_nat o) prbs_orders) ->
  exists bits samples, QPSKfromBERT drawsI drawsQ n nmodes orders shifts invert = Ok (bits, samples) /\
    length bits = nmodes /\ length samples = nmodes /\
    forall m oI oQ, m < nmodes -> nth_error (fst orders) m = Some oI -> nth_error (snd orders) m = Some oQ ->
    exists pI pQ b x, make_prbs_extXOR oI n SeedNone = Ok pI /\ make_prbs_extXOR oQ n SeedNone = Ok pQ /\
      nth_error bits m = Some b /\ nth_error samples m = Some x /\ length b = 2 * n /\ length x = n /\
      forall k, k < n ->
        let i := xorb (fst invert) (delayed pI (fst shifts) k) in let q := xorb (snd invert) (delayed pQ (snd shifts) k) in
        nth_error b (2 * k) = Some i /\ nth_error b (2 * k + 1) = Some q /\ nth_error x k = Some (qpsk_point i q).
Proof. exact (bert_samples drawsI drawsQ n nmodes orders shifts invert). Qed.
Print Assumptions C113_samples_partial.
Theorem C113_modes_refuted drawsI drawsQ n shifts invert :
  QPSKfromBERT drawsI drawsQ n 3 ([15; 23; 15]%N, [15; 23; 15]%N) shifts invert = Err IndexError.
Proof. exact (bert_index drawsI drawsQ n shifts invert). Qed.
Print Assumptions C113_modes_refuted.
Theorem C113_default_refuted n : exists draws, draws_ok draws /\ forall shifts, exists bits x,
  QPSKfromBERT draws draws n 2 ([15%N], [15%N]) shifts (false, false) = Ok (bits, [x; repeat (qpsk_point false false) n]).
Proof. exact (bert_default_modes n). Qed.
Print Assumptions C113_default_refuted.
Example C113_case draws : exists bits samples, QPSKfromBERT draws draws 10 2 ([7; 15]%N, [15; 7]%N) (3, -2)%Z (false, true) = Ok (bits, samples) /\ length samples = 2.
Proof.
  destruct (C113_samples_partial draws draws 10 2 ([7; 15]%N, [15; 7]%N) (3, -2)%Z (false, true)) as (b & s & E & _ & L & _).
  - repeat constructor.
  - repeat constructor.
  - repeat constructor.
  - intros [|[|i]] o Hi [E|E]; cbn in E; try discriminate; try (injection E as <-; cbn; auto).
    all: destruct i; discriminate.
  - exists b, s. split; [exact E|exact L].
Qed.

(** ** C114: how often every QPSK point occurs *)
Theorem C114_counts_partial drawsI drawsQ order sI sQ iI iQ : In order prbs_orders -> let P := 2 ^ order - 1 in
  ((sI - sQ) mod Z.of_nat P <> 0)%Z ->
  exists bits x, QPSKfromBERT drawsI drawsQ P 1 ([N.of_nat order], [N.of_nat order]) (sI, sQ) (iI, iQ) = Ok (bits, [x]) /\ length x = P /\
    forall a b, count_occ Ceq_dec x (qpsk_point a b) = 2 ^ (order - 2) - (if Bool.eqb a iI && Bool.eqb b iQ then 1 else 0).
Proof. exact (bert_counts drawsI drawsQ order sI sQ iI iQ). Qed.
Print Assumptions C114_counts_partial.
Theorem C114_points_refuted drawsI drawsQ n order s : In order prbs_orders ->
  exists bits x, QPSKfromBERT drawsI drawsQ n 1 ([N.of_nat order], [N.of_nat order]) (s, s) (false, false) = Ok (bits, [x]) /\ length x = n /\
    Forall (fun z => z = qpsk_point false false \/ z = qpsk_point true true) x /\
    (forall z, In z x -> z <> qpsk_point false true /\ z <> qpsk_point true false).
Proof. exact (bert_same drawsI drawsQ n order s). Qed.
Print Assumptions C114_points_refuted.
Example C114_case draws : exists bits x, QPSKfromBERT draws draws (2 ^ 7 - 1) 1 ([7%N], [7%N]) (0, 31)%Z (false, true) = Ok (bits, [x]) /\
  count_occ Ceq_dec x (qpsk_point true true) = 32 /\ count_occ Ceq_dec x (qpsk_point false true) = 31.
Proof.
  destruct (C114_counts_partial draws draws 7 0 31 false true) as (b & x & E & _ & H); [left; reflexivity|vm_compute; discriminate|].
  exists b, x. split; [exact E|]. rewrite !H. split; reflexivity.
Qed.

(** ** C115: signals of bare symbols *)
Local Open Scope R_scope.
Theorem C115_given_alphabet rows l : l <> [] -> exists s, symbol_from_array (D2 rows) (Some l) = Ok s /\
  y_coded s = l /\ y_M s = length l /\ y_symbols s = y_samples s /\
  Forall2 (Forall2 (nearest l)) rows (y_samples s) /\ (over l rows -> y_samples s = rows).
Proof. exact (from_given rows l). Qed.
Print Assumptions C115_given_alphabet.
Theorem C115_default_alphabet rows : exists s, symbol_from_array (D2 rows) None = Ok s /\
  y_samples s = rows /\ y_symbols s = rows /\ y_M s = length (y_coded s) /\ NoDup (y_coded s) /\
  (forall z, In z (y_coded s) <-> exists row, In row rows /\ In z row).
Proof. exact (from_default rows). Qed.
Print Assumptions C115_default_alphabet.
Theorem C115_single_mode row l : symbol_from_array (D1 row) l = symbol_from_array (D2 [row]) l.
Proof. exact (from_row row l). Qed.
Print Assumptions C115_single_mode.
Theorem C115_constructor pick M n symbols nmodes : symbols <> [] -> exists s, SymbolOnlySignal pick M n symbols nmodes = Ok s /\
  y_coded s = symbols /\ y_M s = M /\ y_symbols s = y_samples s /\ length (y_samples s) = nmodes /\ rect (y_samples s) n /\
  over symbols (y_samples s) /\
  forall i k row, (k < n)%nat -> nth_error (y_samples s) i = Some row -> nth_error row k = nth_error symbols (pick i k mod length symbols).
Proof. exact (sym_new pick M n symbols nmodes). Qed.
Print Assumptions C115_constructor.
Theorem C115_ser s sig synced tx rx N : y_coded s <> [] -> signal_sync_and_adjust (y_symbols s) sig synced = Ok (tx, rx) ->
  (0 < N)%nat -> rect tx N -> rect rx N -> length tx = length rx ->
  exists ser, symbol_cal_ser s sig synced = Ok (map Some ser) /\ length ser = length rx /\
    forall m t r, nth_error tx m = Some t -> nth_error rx m = Some r ->
      exists e dec, nth_error ser m = Some e /\ Forall2 (nearest (y_coded s)) r dec /\ (Forall (fun z => In z (y_coded s)) r -> dec = r) /\
        INR N * e = INR (n_errors dec t).
Proof. exact (sym_ser s sig synced tx rx N). Qed.
Print Assumptions C115_ser.
Theorem C115_ser_self s modes N : (0 < N)%nat -> (0 < modes)%nat -> rect (y_samples s) N -> length (y_samples s) = modes ->
  y_symbols s = y_samples s -> over (y_coded s) (y_samples s) ->
  symbol_cal_ser s (y_samples s) true = Ok (repeat (Some 0) modes).
Proof. exact (sym_self s modes N). Qed.
Print Assumptions C115_ser_self.
Theorem C115_mi_refuted s sig synced tx rx fast : signal_sync_and_adjust (y_symbols s) sig synced = Ok (tx, rx) ->
  symbol_cal_mi s sig synced None fast = Err TypeError.
Proof. exact (sym_mi s sig synced tx rx fast). Qed.
Print Assumptions C115_mi_refuted.
Theorem C115_order_refuted pick : exists s, SymbolOnlySignal pick 16 5 [C0; C1] 1 = Ok s /\ y_M s <> length (y_coded s).
Proof. exact (sym_order pick). Qed.
Print Assumptions C115_order_refuted.
Example C115_case : exists s, symbol_from_array (D1 [C1; C0; C1]) None = Ok s /\ y_samples s = [[C1; C0; C1]] /\
  symbol_cal_ser s (y_samples s) true = Ok [Some 0].
Proof.
  destruct (from_default [[C1; C0; C1]]) as (s & E & S1 & S2 & _ & _ & I). exists s. split; [exact E|]. split; [exact S1|].
  apply (sym_self s 1 3); [repeat constructor|repeat constructor|rewrite S1; repeat constructor|rewrite S1; reflexivity|congruence|].
  rewrite S1. apply Forall_forall. intros row Hr. apply Forall_forall. intros z Hz. apply I. exists row. split; assumption.
Qed.
