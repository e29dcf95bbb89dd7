(** Properties C50-C57, C78, C79: adaptive equalisers. *)
From Coq Require Import String List ZArith Bool Reals Arith Lia Lra.
From Verif Require Import Common.Py Common.Cplx Common.SumX Model.Constellation Model.Decision Model.Equaliser
  Spec.Seq Spec.Equal Proofs.QualityQ Proofs.EqualP Proofs.EqualQ Proofs.EqualR Proofs.EqualS Proofs.EqualT Proofs.EqualU Proofs.EqualV.
Import ListNotations.
Local Open Scope R_scope.

(** C50: false with more than one mode, see the last theorem.  In every execution the step size stays
    positive and below its initial value, whatever the error function and the interleaving. *)
Theorem C50_bounded_partial : forall E os n t symbols niter mu wx f sched st, 0 < mu ->
  run C0 Cadd Cmul Cconj Cscal f adapt_step E os n t symbols (start C0 E t niter mu wx) sched = Ok st ->
  0 < s_mu st <= mu.
Proof.
  intros E os n t symbols niter mu wx f sched st H Hr.
  apply (run_bound _ _ _ _ _ _ _ adapt_step_ok _ _ _ _ _ mu _ _ _ Hr); cbn; intros; lra.
Qed.
Print Assumptions C50_bounded_partial.
Theorem C50_bounded_real_partial : forall E os n t symbols niter mu wx f sched st, 0 < mu ->
  run 0 Rplus Rmult (fun x => x) Rmult f adapt_step_real E os n t symbols (start 0 E t niter mu wx) sched = Ok st ->
  0 < s_mu st <= mu.
Proof.
  intros E os n t symbols niter mu wx f sched st H Hr.
  apply (run_bound _ _ _ _ _ _ _ adapt_step_real_ok _ _ _ _ _ mu _ _ _ Hr); cbn; intros; lra.
Qed.
Print Assumptions C50_bounded_real_partial.
(** without threads it never increases from one point of the execution to a later one *)
Theorem C50_sequential_partial : forall E os n t symbols niter mu wx f ad modes a b c s1 s2, 0 < mu ->
  one_by_one t ad niter modes = (a ++ b ++ c)%list ->
  let go := run C0 Cadd Cmul Cconj Cscal f adapt_step E os n t symbols in
  go (start C0 E t niter mu wx) a = Ok s1 -> go s1 b = Ok s2 -> 0 < s_mu s2 <= s_mu s1.
Proof.
  intros E os n t symbols niter mu wx f ad modes a b c s1 s2 H Hs go H1 H2.
  apply (serial_mono C0 Cadd Cmul Cconj Cscal f adapt_step adapt_step_ok E os n t symbols a b c
           (start C0 E t niter mu wx) s1 s2); [rewrite <- Hs; apply serial_one_by_one|exact H|exact H1|exact H2].
Qed.
Print Assumptions C50_sequential_partial.
Theorem C50_sequential_real_partial : forall E os n t symbols niter mu wx f ad modes a b c s1 s2, 0 < mu ->
  one_by_one t ad niter modes = (a ++ b ++ c)%list ->
  let go := run 0 Rplus Rmult (fun x => x) Rmult f adapt_step_real E os n t symbols in
  go (start 0 E t niter mu wx) a = Ok s1 -> go s1 b = Ok s2 -> 0 < s_mu s2 <= s_mu s1.
Proof.
  intros E os n t symbols niter mu wx f ad modes a b c s1 s2 H Hs go H1 H2.
  apply (serial_mono 0 Rplus Rmult (fun x => x) Rmult f adapt_step_real adapt_step_real_ok E os n t symbols a b c
           (start 0 E t niter mu wx) s1 s2); [rewrite <- Hs; apply serial_one_by_one|exact H|exact H1|exact H2].
Qed.
Print Assumptions C50_sequential_real_partial.
(** two threads share the step size: it goes from 1/2 back to 1 *)
Theorem C50_race_refuted : exists E wx symbols f a b s1 s2, select_error_real "cma" = Ok f /\
  interleaving [0; 1]%nat (program true 1 2) (a ++ b) /\
  let go := run 0 Rplus Rmult (fun x => x) Rmult f adapt_step_real E 1 1 2 symbols in
  go (start 0 E 2 1 1 wx) a = Ok s1 /\ go s1 b = Ok s2 /\ s_mu s1 = 1 / 2 /\ s_mu s2 = 1.
Proof.
  destruct c50_race as (s1 & s2 & H). exists Ex, wx0, sy0, cma_error_real, race, [(1%nat, Store 0 1)], s1, s2.
  split; [reflexivity|]. split; [exact race_interleaving|exact H].
Qed.
Print Assumptions C50_race_refuted.
Example C50_case : exists st, run0 (start 0 Ex 2 1 1 wx0) (one_by_one 2 true 1 [0; 1]%nat) = Ok st /\ 0 < s_mu st <= 1.
Proof.
  destruct c52_adaptive as (s & s' & _ & H & _). exists s'. split; [exact H|].
  apply (C50_bounded_real_partial Ex 1 1 2 sy0 1 1 wx0 cma_error_real (one_by_one 2 true 1 [0; 1]%nat)); [lra|exact H].
Qed.

(** C51 *)
Theorem C51_training_windows : forall E p l os k n method modes, shape E p l -> (1 <= p)%nat -> (0 < os)%nat -> (1 <= n)%nat -> (1 <= k)%nat ->
  In method ["cma"; "cma2"; "sgncma"; "mcma"; "rde"; "sbd"; "mddma"; "dd"; "cma_real"; "sgncma_real"; "dd_real"]%string ->
  (method = "mcma"%string -> (2 <= k)%nat) -> (0 <= cal_training_symbol_len os n l)%Z ->
  match modes with None => True | Some ms => Forall (fun x => x < p)%nat ms end ->
  exists j, prepare E l os k None n None method None modes = Ok j /\
    (Z.of_nat (j_trsyms j) = cal_training_symbol_len os n l)%Z /\
    (forall i, (i < j_trsyms j)%nat -> (i * os + n <= l)%nat) /\
    forall mu ad niter sched, interleaving (j_modes j) (program ad niter (j_trsyms j)) sched ->
      exists w, equalise_signal E l os k mu None n None niter method None modes sched = Ok (w, j).
Proof. exact default_call. Qed.
Print Assumptions C51_training_windows.
(** every prepared call with the default length, also with given references, taps and modes *)
Theorem C51_default_length : forall E p l os k wxy n method symbols modes j, shape E p l -> (0 < os)%nat -> (1 <= n)%nat ->
  match wxy with None => True | Some (TapsC w) => shape3 w (if memb (lower method) REAL_VALUED then 2 * p else p) (if memb (lower method) REAL_VALUED then 2 * p else p) n
               | Some (TapsR w) => shape3 w (if memb (lower method) REAL_VALUED then 2 * p else p) (if memb (lower method) REAL_VALUED then 2 * p else p) n end ->
  prepare E l os k wxy n None method symbols modes = Ok j ->
  forall i, (i < j_trsyms j)%nat -> (i * os + n <= l)%nat.
Proof.
  intros E p l os k wxy n method symbols modes j HE Ho Hn Hw Hp i Hi.
  destruct (prepare_inv E p l os k wxy n None method symbols modes j HE) as (_ & Ht & Hz & _); [destruct wxy as [[]|]; exact Hw|exact Hp|].
  apply train_len; [assumption|lia|]. rewrite Ht in Hi. lia.
Qed.
Print Assumptions C51_default_length.
(** the number of symbols is the largest multiple of the number of taps that leaves one block free *)
Theorem C51_length : forall os n l, (0 < os)%nat -> (1 <= n)%nat ->
  exists b : Z, cal_training_symbol_len os n l = ((b - 1) * Z.of_nat n)%Z /\
    (b * Z.of_nat n <= Z.of_nat l / Z.of_nat os < (b + 1) * Z.of_nat n)%Z.
Proof.
  intros os n l Ho Hn. exists (Z.of_nat l / Z.of_nat os / Z.of_nat n)%Z. split; [reflexivity|].
  generalize (Z.of_nat l / Z.of_nat os)%Z. intros q.
  pose proof (Z.mul_div_le q (Z.of_nat n) ltac:(lia)). pose proof (Z.mul_succ_div_gt q (Z.of_nat n) ltac:(lia)). lia.
Qed.
Print Assumptions C51_length.
Example C51_case : cal_training_symbol_len 2 3 20 = 6%Z /\ exists j w,
  equalise_signal [repeat C1 20; repeat C1 20] 20 2 2 1 None 3 None 2 "rde" None (Some [1; 0]%nat)
    (one_by_one 6 true 2 [1; 0]%nat) = Ok (w, j).
Proof.
  split; [reflexivity|]. assert (HE : shape [repeat C1 20; repeat C1 20] 2 20) by (split; [reflexivity|repeat constructor]).
  destruct (C51_training_windows [repeat C1 20; repeat C1 20] 2 20 2 2 3 "rde" (Some [1; 0]%nat) HE) as (j & Hj & Ht & _ & H);
    [lia|lia|lia|lia|cbn; tauto|discriminate|discriminate|repeat constructor|].
  destruct (prepare_inv [repeat C1 20; repeat C1 20] 2 20 2 2 None 3 None "rde" None (Some [1; 0]%nat) j HE I Hj) as (_ & _ & _ & _ & Hm & _).
  assert (Ht6 : j_trsyms j = 6%nat) by (change (cal_training_symbol_len 2 3 20) with 6%Z in Ht; lia).
  exists j. apply (H 1 true 2%nat). cbn in Hm. rewrite Hm, Ht6. apply one_by_one_interleaving. repeat constructor; cbn; lia.
Qed.

(** C52: false for an adaptive step size, see the last theorem. *)
Theorem C52_fixed_step_partial : forall E os n t symbols f modes niter sched st st',
  interleaving modes (program false niter t) sched ->
  let go := run C0 Cadd Cmul Cconj Cscal f adapt_step E os n t symbols in
  go st sched = Ok st' ->
  (forall m, ~ In m modes -> nth_error (s_wx st') m = nth_error (s_wx st) m) /\
  (forall m, In m modes -> exists st1, go st (one_by_one t false niter [m]) = Ok st1 /\
     nth_error (s_wx st1) m = nth_error (s_wx st') m /\ nth_error (s_err st1) m = nth_error (s_err st') m) /\
  s_mu st' = s_mu st.
Proof. intros. now apply (indep C0 Cadd Cmul Cconj Cscal f adapt_step E os n t symbols modes niter sched st st'). Qed.
Print Assumptions C52_fixed_step_partial.
Theorem C52_fixed_step_real_partial : forall E os n t symbols f modes niter sched st st',
  interleaving modes (program false niter t) sched ->
  let go := run 0 Rplus Rmult (fun x => x) Rmult f adapt_step_real E os n t symbols in
  go st sched = Ok st' ->
  (forall m, ~ In m modes -> nth_error (s_wx st') m = nth_error (s_wx st) m) /\
  (forall m, In m modes -> exists st1, go st (one_by_one t false niter [m]) = Ok st1 /\
     nth_error (s_wx st1) m = nth_error (s_wx st') m /\ nth_error (s_err st1) m = nth_error (s_err st') m) /\
  s_mu st' = s_mu st.
Proof. intros. now apply (indep 0 Rplus Rmult (fun x => x) Rmult f adapt_step_real E os n t symbols modes niter sched st st'). Qed.
Print Assumptions C52_fixed_step_real_partial.
(** a schedule fails only if the training of one of its modes alone fails *)
Theorem C52_fixed_step_fails_alone_partial : forall E os n t symbols f modes niter sched st,
  interleaving modes (program false niter t) sched ->
  let go := run C0 Cadd Cmul Cconj Cscal f adapt_step E os n t symbols in
  (forall m, In m modes -> exists st1, go st (one_by_one t false niter [m]) = Ok st1) -> exists st', go st sched = Ok st'.
Proof. intros. now apply (indep_exists C0 Cadd Cmul Cconj Cscal f adapt_step E os n t symbols modes niter sched st). Qed.
Print Assumptions C52_fixed_step_fails_alone_partial.
Theorem C52_unselected_modes_partial : forall E os n t symbols f modes ad niter sched st st' m,
  interleaving modes (program ad niter t) sched ->
  run C0 Cadd Cmul Cconj Cscal f adapt_step E os n t symbols st sched = Ok st' -> ~ In m modes ->
  nth_error (s_wx st') m = nth_error (s_wx st) m /\ nth_error (s_err st') m = nth_error (s_err st) m.
Proof.
  intros E os n t symbols f modes ad niter sched st st' m Hi Hr Hm. eapply run_other; [exact Hr|].
  intros e He Heq. apply Hm. rewrite <- Heq. now apply Hi.
Qed.
Print Assumptions C52_unselected_modes_partial.
(** mode 1 trained alone and after mode 0 *)
Theorem C52_adaptive_refuted : exists E wx symbols f s s', select_error_real "cma" = Ok f /\
  let go := run 0 Rplus Rmult (fun x => x) Rmult f adapt_step_real E 1 1 2 symbols (start 0 E 2 1 1 wx) in
  go (one_by_one 2 true 1 [1%nat]) = Ok s /\ go (one_by_one 2 true 1 [0; 1]%nat) = Ok s' /\
  nth_error (s_wx s) 1 = Some [[0]; [2]] /\ nth_error (s_wx s') 1 = Some [[0]; [3 / 2]].
Proof.
  destruct c52_adaptive as (s & s' & H). exists Ex, wx0, sy0, cma_error_real, s, s'. split; [reflexivity|exact H].
Qed.
Print Assumptions C52_adaptive_refuted.
Example C52_case : exists st', run0 (start 0 Ex 2 1 1 wx0) [(1, Comp 0 0); (0, Comp 0 0); (0, Comp 0 1); (1, Comp 0 1)]%nat = Ok st' /\
  exists st1, run0 (start 0 Ex 2 1 1 wx0) [(1, Comp 0 0); (1, Comp 0 1)]%nat = Ok st1 /\
    nth_error (s_wx st1) 1 = nth_error (s_wx st') 1.
Proof.
  eexists. split; [cbv -[Rplus Rmult Rminus Rabs IZR pow]; reflexivity|].
  eexists. split; [cbv -[Rplus Rmult Rminus Rabs IZR pow]; reflexivity|]. reflexivity.
Qed.

(** C53: the number of symbols differs between the compiled and the numpy version, see the last theorem *)
Theorem C53_filter_partial : forall E p l os wx nm n modes, (0 < os)%nat -> (n <= l)%nat -> shape E p l -> shape3 wx nm p n ->
  match modes with None => True | Some m => Forall (fun x => x < nm)%nat m end ->
  exists out, core_apply_filter (ArrC E) l os (TapsC wx) n modes = Ok out /\
    shape out (length (sel_modes modes nm)) ((l - n + 1) / os) /\
    forall j m i, nth_error (sel_modes modes nm) j = Some m -> (i < (l - n + 1) / os)%nat ->
      (i * os + n <= l)%nat /\ cell C0 out j i = fir E (nth m wx []) n (i * os).
Proof. exact filter_complex. Qed.
Print Assumptions C53_filter_partial.
(** real-valued taps: first half of the modes gives the real parts, second half the imaginary parts *)
Theorem C53_filter_real_partial : forall e E p l os wx nm n modes q, (0 < os)%nat -> (n <= l)%nat -> shape E p l -> shape3 wx nm p n ->
  (e = ArrR E \/ exists Ec, e = ArrC Ec /\ E = convert_sig_to_real Ec) ->
  match modes with None => True | Some m => Forall (fun x => x < nm)%nat m end ->
  length (sel_modes modes nm) = (q + q)%nat ->
  exists out, core_apply_filter e l os (TapsR wx) n modes = Ok out /\
    shape out q ((l - n + 1) / os) /\
    forall j m m' i, nth_error (sel_modes modes nm) j = Some m -> nth_error (sel_modes modes nm) (q + j) = Some m' ->
      (i < (l - n + 1) / os)%nat -> (i * os + n <= l)%nat /\
      cell C0 out j i = (fir_real E (nth m wx []) n (i * os), fir_real E (nth m' wx []) n (i * os)).
Proof. exact filter_real. Qed.
Print Assumptions C53_filter_real_partial.
Theorem C53_numpy_partial : forall E p l os wx n, (0 < os)%nat -> (os <= n)%nat -> (n <= l)%nat -> (0 < p)%nat -> shape E p l -> shape3 wx p p n ->
  exists out, apply_filter_py E os wx n = Ok out /\ shape out p (1 + (l - n) / os) /\
    forall m i, (m < p)%nat -> (i < 1 + (l - n) / os)%nat -> (i * os + n <= l)%nat /\ cell C0 out m i = fir E (nth m wx []) n (i * os).
Proof. exact filter_py. Qed.
Print Assumptions C53_numpy_partial.
Theorem C53_linear_partial : forall E1 E2 E3 w p l n s a b, shape E1 p l -> shape E2 p l -> shape E3 p l -> (s + n <= l)%nat ->
  (forall k i, (k < p)%nat -> (i < l)%nat -> cell C0 E3 k i = (a * cell C0 E1 k i + b * cell C0 E2 k i)%C) ->
  fir E3 w n s = (a * fir E1 w n s + b * fir E2 w n s)%C.
Proof. exact fir_lin_in. Qed.
Print Assumptions C53_linear_partial.
Theorem C53_linear_taps_partial : forall E w1 w2 w3 p l n s a b, shape E p l ->
  (forall k i, (k < p)%nat -> (i < n)%nat -> cell C0 w3 k i = (a * cell C0 w1 k i + b * cell C0 w2 k i)%C) ->
  fir E w3 n s = (a * fir E w1 n s + b * fir E w2 n s)%C.
Proof. exact fir_lin_w. Qed.
Print Assumptions C53_linear_taps_partial.
Theorem C53_delta_partial : forall E w p l n s k0 d, shape E p l -> (k0 < p)%nat -> (d < n)%nat ->
  (forall k i, (k < p)%nat -> (i < n)%nat -> cell C0 w k i = if (k =? k0)%nat && (i =? d)%nat then C1 else C0) ->
  fir E w n s = cell C0 E k0 (s + d).
Proof. exact fir_delta. Qed.
Print Assumptions C53_delta_partial.
Theorem C53_counts_refuted : exists E os wx n a b, shape E 1 4 /\ shape3 wx 1 1 n /\
  core_apply_filter (ArrC E) 4 os (TapsC wx) n None = Ok a /\ apply_filter_py E os wx n = Ok b /\ shape a 1 1 /\ shape b 1 2.
Proof.
  assert (HE : shape [repeat C1 4] 1 4) by (split; [reflexivity|repeat constructor]).
  assert (Hw : shape3 [[[C1; C1]]] 1 1 2) by (split; [reflexivity|repeat constructor]).
  destruct (C53_filter_partial [repeat C1 4] 1 4 2 [[[C1; C1]]] 1 2 None) as (a & Ha & Sa & _); [lia|lia|exact HE|exact Hw|exact I|].
  destruct (C53_numpy_partial [repeat C1 4] 1 4 2 [[[C1; C1]]] 2) as (b & Hb & Sb & _); [lia|lia|lia|lia|exact HE|exact Hw|].
  exists [repeat C1 4], 2%nat, [[[C1; C1]]], 2%nat, a, b. split; [exact HE|]. split; [exact Hw|]. split; [exact Ha|]. split; [exact Hb|].
  split; [exact Sa|exact Sb].
Qed.
Print Assumptions C53_counts_refuted.
(** the initial taps return the delayed input of the own mode *)
Example C53_case : exists out, core_apply_filter (ArrC [[(1, 0); (2, 0); (3, 0); (4, 0); (5, 0)]; repeat C0 5]) 5 2
    (TapsC (init_taps C0 C1 3 2 2)) 3 (Some [0%nat]) = Ok out /\ length out = 1%nat /\ cell C0 out 0 0 = (2, 0).
Proof.
  assert (HE : shape [[(1, 0); (2, 0); (3, 0); (4, 0); (5, 0)]; repeat C0 5] 2 5) by (split; [reflexivity|repeat constructor]).
  destruct (C53_filter_partial _ 2 5 2 (init_taps C0 C1 3 2 2) 2 3 (Some [0%nat]) ltac:(lia) ltac:(lia) HE (init_shape C0 C1 3 2 2)) as (o & H1 & H2 & H3);
    [repeat constructor|]. exists o. split; [exact H1|]. split; [apply H2|].
  destruct (H3 0%nat 0%nat 0%nat eq_refl) as [_ ->]; [cbn; lia|].
  rewrite (C53_delta_partial _ _ 2 5 3 (0 * 2) 0 1 HE); [reflexivity|lia|lia|].
  intros k i Hk Hi. destruct k as [|[|k]]; [| |lia]; destruct i as [|[|[|i]]]; try lia; reflexivity.
Qed.

(** C54: true of rde; mrde fails for 2 and 8 symbols, see the last theorems *)
Theorem C54_rde : forall k n, (1 <= k)%nat -> exists row f, select_error "rde" = Ok f /\
  reshape_symbols None "rde" k n = Ok (Some (ArrC (repeat row n))) /\
  forall x i, exists r, f x row i = Ok (err_cma r x) /\
    nearest_code (fun y => exists s, In s (qam_alphabet k) /\ y = Cnorm2 s) (Cnorm2 x) r.
Proof. intros k n Hk. destruct (c54_rde k n Hk) as [row H]. exists row, rde_error. split; [reflexivity|exact H]. Qed.
Print Assumptions C54_rde.
Theorem C54_mrde_partial : forall k n, (Nat.even k = true /\ (2 <= k)%nat) \/ (Nat.odd k = true /\ (5 <= k)%nat) ->
  exists row f, select_error "mrde" = Ok f /\ reshape_symbols None "mrde" k n = Ok (Some (ArrC (repeat row n))) /\
  forall x i, exists r, f x row i = Ok (err_mcma r x) /\
    nearest_code (fun y => exists s, In s (qam_alphabet k) /\ y = Re s * Re s) (Re x * Re x) (Re r) /\
    nearest_code (fun y => exists s, In s (qam_alphabet k) /\ y = Im s * Im s) (Im x * Im x) (Im r).
Proof. intros k n Hk. destruct (c54_mrde k n Hk) as [row H]. exists row, mrde_error. split; [reflexivity|exact H]. Qed.
Print Assumptions C54_mrde_partial.
Theorem C54_mrde_8qam_refuted : exists row, (forall n, reshape_symbols None "mrde" 3 n = Ok (Some (ArrC (repeat row n)))) /\
  (exists x i, mrde_error x row i = Err IndexError) /\
  (exists x i e, mrde_error x row i = Ok e /\ forall r,
     nearest_code (fun y => exists s, In s (qam_alphabet 3) /\ y = Re s * Re s) (Re x * Re x) (Re r) -> e <> err_mcma r x).
Proof. exact c54_mrde_8. Qed.
Print Assumptions C54_mrde_8qam_refuted.
(** all references are nan *)
Theorem C54_mrde_bpsk_refuted : forall n, reshape_symbols None "mrde" 1 n = Ok None.
Proof. exact c54_mrde_2. Qed.
Print Assumptions C54_mrde_bpsk_refuted.
(** the codes of any sorted code book, e.g. radii 1 and 3: an output of squared modulus 4 belongs to 3 *)
Example C54_case : rde_error (2, 0) (map RtoC ([1; 3] ++ [1 + (3 - 1) / 2])%list) 0 = Ok (err_cma 3 (2, 0)).
Proof.
  unfold rde_error. change (array_split2 (map RtoC ([1; 3] ++ [1 + (3 - 1) / 2])%list)) with ([RtoC 1; RtoC 3], [RtoC (1 + (3 - 1) / 2)]).
  cbn iota beta zeta. rewrite Cabs_pow2. unfold partition_value, partition_index, Cnorm2, RtoC, Re. cbn [fst snd].
  match goal with |- context [Rlt_dec ?a ?b] => destruct (Rlt_dec a b) as [H|H] end; [|exfalso; apply H; lra].
  unfold err_cma, Cscal, Cnorm2. reflexivity.
Qed.

(** C55: false of "sgncma", see the last theorem *)
Theorem C55_decision_zero : forall m, In m ["sbd"; "mddma"; "dd"]%string -> exists f, select_error m = Ok f /\
  forall al x i, In x al -> f x al i = Ok C0.
Proof.
  intros m [<-|[<-|[<-|[]]]]; eexists; (split; [reflexivity|]); intros al x i H; now apply dd_zero.
Qed.
Print Assumptions C55_decision_zero.
Theorem C55_decision_zero_real : exists f g, select_error_real (drop5 "dd_real") = Ok f /\ select_error_real (drop5 "dd_data_real") = Ok g /\
  (forall al x i, In x al -> f x al i = Ok 0) /\ (forall s x i, nth_error s i = Some x -> g x s i = Ok 0).
Proof.
  exists dd_error_real, dd_data_error_real. split; [reflexivity|]. split; [reflexivity|]. split; [exact dd_real_zero|].
  intros s x i H. unfold dd_data_error_real. rewrite (getn_ok _ _ _ H). cbn [bind]. f_equal. ring.
Qed.
Print Assumptions C55_decision_zero_real.
Theorem C55_data_zero : exists f, select_error "sbd_data" = Ok f /\ forall s x i, nth_error s i = Some x -> f x s i = Ok C0.
Proof.
  exists sbd_data_error. split; [reflexivity|]. intros s x i H. unfold sbd_data_error. rewrite (getn_ok _ _ _ H). cbn [bind].
  apply f_equal. unfold C0. apply (f_equal2 pair); ring.
Qed.
Print Assumptions C55_data_zero.
(** the reference of the constant-modulus methods is the modulus <|a|^4>/<|a|^2> of the alphabet ... *)
Theorem C55_cma_target : forall k n m, (1 <= k)%nat -> (m = "cma" \/ m = "cma2" \/ m = "sgncma")%string -> exists r,
  reshape_symbols None m k n = Ok (Some (ArrC (repeat [RtoC r] n))) /\
  r * Rsum (map Cnorm2 (qam_alphabet k)) = Rsum (map (fun s => Cnorm2 s * Cnorm2 s) (qam_alphabet k)).
Proof. exact c55_target. Qed.
Print Assumptions C55_cma_target.
Theorem C55_mcma_target : forall k n, (2 <= k)%nat -> exists r,
  reshape_symbols None "mcma" k n = Ok (Some (ArrC (repeat [r] n))) /\
  Re r * Rsum (map (fun s => Re s * Re s) (qam_alphabet k)) = Rsum (map (fun s => Re s ^ 4) (qam_alphabet k)) /\
  Im r * Rsum (map (fun s => Im s * Im s) (qam_alphabet k)) = Rsum (map (fun s => Im s ^ 4) (qam_alphabet k)).
Proof. exact c55_target_mcma. Qed.
Print Assumptions C55_mcma_target.
Theorem C55_cma_real_target : forall k p m, (1 <= k)%nat -> (1 <= p)%nat -> (m = "cma_real" \/ m = "sgncma_real")%string -> exists r,
  reshape_symbols None m k (2 * p) = Ok (Some (ArrR (repeat [r] (2 * p)))) /\
  r * Rsum (map (fun s => Re s * Re s) (qam_alphabet k)) = Rsum (map (fun s => Re s ^ 4) (qam_alphabet k)).
Proof. exact c55_target_real. Qed.
Print Assumptions C55_cma_real_target.
(** the real-valued methods use this value also for the imaginary parts, which is wrong for 8-QAM *)
Theorem C55_cma_real_8qam_refuted : forall p, (1 <= p)%nat -> exists r,
  reshape_symbols None "cma_real" 3 (2 * p) = Ok (Some (ArrR (repeat [r] (2 * p)))) /\
  r * Rsum (map (fun s => Im s * Im s) (qam_alphabet 3)) <> Rsum (map (fun s => Im s ^ 4) (qam_alphabet 3)).
Proof. exact c55_cma_real_8. Qed.
Print Assumptions C55_cma_real_8qam_refuted.
(** ... and the errors are zero on it *)
Theorem C55_cma_zero : forall x r i,
  (exists f, select_error "cma" = Ok f /\ (Cnorm2 x = Re r -> f x [r] i = Ok C0)) /\
  (exists f, select_error "cma2" = Ok f /\ ((x * x)%C = r -> f x [r] i = Ok C0)) /\
  (exists f, select_error "mcma" = Ok f /\ (Re x * Re x = Re r -> Im x * Im x = Im r -> f x [r] i = Ok C0)).
Proof.
  intros x r i. split; [|split]; eexists; (split; [reflexivity|]).
  - intros H. unfold cma_error. cbn [getn nth_error bind]. apply f_equal. rewrite Cabs_pow2, H. unfold Cscal. apply C_zero2; ring.
  - intros H. unfold cma2_error. cbn [getn nth_error bind]. apply f_equal. rewrite H. unfold Csub, Cmul. apply C_zero2; cbn; ring.
  - intros H1 H2. unfold mcma_error. cbn [getn nth_error bind]. apply f_equal. rewrite <- H1, <- H2. apply C_zero2; ring.
Qed.
Print Assumptions C55_cma_zero.
Theorem C55_cma_zero_real : forall x r i, x * x = r ->
  (exists f, select_error_real (drop5 "cma_real") = Ok f /\ f x [r] i = Ok 0) /\
  (exists f, select_error_real (drop5 "sgncma_real") = Ok f /\ f x [r] i = Ok 0).
Proof.
  intros x r i H. split; eexists; (split; [reflexivity|]); unfold cma_error_real, sgncma_error_real; cbn [getn nth_error bind]; f_equal; rewrite Rabs_pow2, H.
  - ring.
  - replace (r - r) with 0 by ring. unfold sign. destruct (Rlt_dec 0 0); [lra|]. destruct (Rlt_dec 0 0); [lra|ring].
Qed.
Print Assumptions C55_cma_zero_real.
Theorem C55_rde_zero : forall k n, (1 <= k)%nat -> exists row f, select_error "rde" = Ok f /\
  reshape_symbols None "rde" k n = Ok (Some (ArrC (repeat row n))) /\
  forall x s i, In s (qam_alphabet k) -> Cnorm2 x = Cnorm2 s -> f x row i = Ok C0.
Proof.
  intros k n Hk. destruct (C54_rde k n Hk) as (row & f & Hf & Hr & H). exists row, f. split; [exact Hf|]. split; [exact Hr|].
  intros x s i Hs Hx. destruct (H x i) as (r & -> & [_ Hmin]). specialize (Hmin (Cnorm2 x) (ex_intro _ s (conj Hs Hx))).
  replace (Cnorm2 x - Cnorm2 x) with 0 in Hmin by ring. rewrite Rabs_R0 in Hmin.
  assert (r = Cnorm2 x) by (revert Hmin; unfold Rabs; destruct (Rcase_abs _); lra). subst r.
  apply f_equal. unfold err_cma, Cscal. apply C_zero2; ring.
Qed.
Print Assumptions C55_rde_zero.
(** the method names: constant modulus *)
Theorem C55_names_cma_partial : forall x r rs i,
  (exists f, select_error "cma" = Ok f /\ f x (r :: rs) i = Ok (err_cma (Re r) x)) /\
  (exists f, select_error "cma2" = Ok f /\ f x (r :: rs) i = Ok (err_cma2 r x)) /\
  (exists f, select_error "mcma" = Ok f /\ f x (r :: rs) i = Ok (err_mcma r x)).
Proof.
  intros x r rs i. split; [|split]; eexists; (split; [reflexivity|]).
  - unfold cma_error, err_cma. cbn [getn nth_error bind]. now rewrite Cabs_pow2.
  - reflexivity.
  - unfold mcma_error, err_mcma. cbn [getn nth_error bind]. now rewrite !pow2_mul.
Qed.
Print Assumptions C55_names_cma_partial.
(** decision-directed methods, for outputs nearer than sqrt 1000 to some symbol (cf. C21) *)
Theorem C55_names_decision_partial : forall x al i, (exists t, In t al /\ Cabs (x - t)%C ^ 2 < 1000) -> exists s, nearest_symbol al x s /\
  (exists f, select_error "sbd" = Ok f /\ f x al i = Ok (err_sbd s x)) /\
  (exists f, select_error "mddma" = Ok f /\ f x al i = Ok (err_mddma s x)) /\
  (exists f, select_error "dd" = Ok f /\ f x al i = Ok (err_dd s x)).
Proof.
  intros x al i H. exists (fst (det_symbol x al)). split; [now apply det_symbol_near|]. split; [|split]; eexists; (split; [reflexivity|]).
  - reflexivity.
  - unfold mddma_error, err_mddma. now rewrite !pow2_mul.
  - reflexivity.
Qed.
Print Assumptions C55_names_decision_partial.
Theorem C55_names_data_partial : forall x s i,
  (forall y, nth_error s i = Some y -> exists f, select_error "sbd_data" = Ok f /\ f x s i = Ok (err_sbd y x)) /\
  (nth_error s i = None -> exists f, select_error "sbd_data" = Ok f /\ f x s i = Err IndexError).
Proof.
  intros x s i. split.
  - intros y H. eexists. split; [reflexivity|]. unfold sbd_data_error. now rewrite (getn_ok _ _ _ H).
  - intros H. eexists. split; [reflexivity|]. unfold sbd_data_error, getn. now rewrite H.
Qed.
Print Assumptions C55_names_data_partial.
Theorem C55_names_real_partial : forall x r rs i,
  (exists f, select_error_real (drop5 "cma_real") = Ok f /\ f x (r :: rs) i = Ok ((r - x * x) * x)) /\
  (exists f d s, select_error_real (drop5 "sgncma_real") = Ok f /\ is_sign (r - x * x) d /\ is_sign x s /\ f x (r :: rs) i = Ok (d * s)) /\
  (exists f s, select_error_real (drop5 "dd_real") = Ok f /\ In s (r :: rs) /\
     (forall s', In s' (r :: rs) -> Rabs (x - s) <= Rabs (x - s')) /\ f x (r :: rs) i = Ok ((s - x) * Rabs s)) /\
  (forall s, nth_error (r :: rs) i = Some s -> exists f, select_error_real (drop5 "dd_data_real") = Ok f /\ f x (r :: rs) i = Ok ((s - x) * Rabs s)).
Proof.
  intros x r rs i. split; [|split; [|split]].
  - eexists. split; [reflexivity|]. unfold cma_error_real. cbn [getn nth_error bind]. now rewrite Rabs_pow2.
  - eexists. exists (sign (r - x * x)), (sign x). split; [reflexivity|]. split; [apply sign_is|]. split; [apply sign_is|].
    unfold sgncma_error_real. cbn [getn nth_error bind]. now rewrite Rabs_pow2.
  - destruct (det_real_near x (r :: rs) ltac:(discriminate)) as (s & E & Hin & Hmin). eexists. exists s. split; [reflexivity|].
    split; [exact Hin|]. split; [exact Hmin|]. unfold dd_error_real. now rewrite E.
  - intros s H. eexists. split; [reflexivity|]. unfold dd_data_error_real. now rewrite (getn_ok _ _ _ H).
Qed.
Print Assumptions C55_names_real_partial.
Theorem C55_names_unknown : forall m, ~ In m ["cma"; "cma2"; "sgncma"; "mcma"; "rde"; "mrde"; "sbd"; "mddma"; "dd"; "sbd_data"]%string ->
  select_error m = Err ValueError.
Proof.
  intros m H. cbn [In] in H. unfold select_error. 
  repeat match goal with |- context [(m =? ?x)%string] => destruct (String.eqb_spec m x) as [->|_]; [exfalso; tauto|] end. reflexivity.
Qed.
Print Assumptions C55_names_unknown.
(** output 1/2, target 1: the error is 3/8, not the product of the signs *)
Theorem C55_sgncma_refuted : exists f e, select_error "sgncma" = Ok f /\ f (1 / 2, 0) [C1] 0%nat = Ok e /\
  forall d a b, is_sign (1 - Cnorm2 (1 / 2, 0)) d -> is_sign (1 / 2) a -> is_sign 0 b -> e <> Cscal d (a, b).
Proof. exact sgncma_differs. Qed.
Print Assumptions C55_sgncma_refuted.
Example C55_case : sbd_error (3, -1) [(1, 1); (3, -1)] 0 = Ok C0 /\ dd_data_error_real 1 [5; 2] 1 = Ok 2.
Proof.
  split.
  - destruct (C55_decision_zero "sbd" ltac:(cbn; tauto)) as (f & Hf & H). injection Hf as <-. apply H. cbn; tauto.
  - unfold dd_data_error_real. cbn [getn nth_error bind]. f_equal. rewrite Rabs_right; lra.
Qed.

(** C56 *)
Theorem C56_roundtrip : forall E, convert_sig_to_cmplx (convert_sig_to_real E) (2 * length E) = Ok E.
Proof. exact real_roundtrip. Qed.
Print Assumptions C56_roundtrip.
Theorem C56_split : forall E p l, shape E p l -> shape (convert_sig_to_real E) (2 * p) l /\
  forall k i, (k < p)%nat -> cell 0 (convert_sig_to_real E) k i = Re (cell C0 E k i) /\ cell 0 (convert_sig_to_real E) (p + k) i = Im (cell C0 E k i).
Proof.
  intros E p l HE. split; [now apply real_shape|]. intros k i Hk. unfold cell, convert_sig_to_real. destruct HE as [HE _]. split.
  - rewrite app_nth1 by (rewrite map_length; lia). pose proof (map_nth (map Re) E [] k) as Hx. cbn [map] in Hx. rewrite Hx.
    exact (map_nth Re (nth k E []) C0 i).
  - rewrite app_nth2 by (rewrite map_length; lia). rewrite map_length, HE. replace (p + k - p)%nat with k by lia.
    pose proof (map_nth (map Im) E [] k) as Hx. cbn [map] in Hx. rewrite Hx. exact (map_nth Im (nth k E []) C0 i).
Qed.
Print Assumptions C56_split.
Theorem C56_join : forall t q n, shape t (q + q) n -> exists out, convert_sig_to_cmplx t (q + q) = Ok out /\ shape out q n /\
    forall j i, (j < q)%nat -> (i < n)%nat -> cell C0 out j i = (cell 0 t j i, cell 0 t (q + j) i).
Proof. exact cmplx_join. Qed.
Print Assumptions C56_join.
(** references: one row per mode, one row for all modes, or generated *)
Theorem C56_references : forall m k p rows, (m = "dd_real" \/ m = "dd_data_real")%string -> length rows = p -> (1 <= p)%nat ->
  reshape_symbols (Some (ArrC rows)) m k (2 * p) = Ok (Some (ArrR (convert_sig_to_real rows))).
Proof. exact reshape_real. Qed.
Print Assumptions C56_references.
Theorem C56_reference_row : forall m k p row, (m = "dd_real" \/ m = "dd_data_real")%string ->
  reshape_symbols (Some (ArrC [row])) m k (2 * p) = Ok (Some (ArrR (convert_sig_to_real (repeat row p)))).
Proof. exact reshape_real_row. Qed.
Print Assumptions C56_reference_row.
Theorem C56_generated : forall k p, (1 <= p)%nat ->
  reshape_symbols None "dd_real" k (2 * p) = Ok (Some (ArrR (convert_sig_to_real (repeat (qam_alphabet k) p)))).
Proof. exact reshape_real_gen. Qed.
Print Assumptions C56_generated.
Example C56_case : convert_sig_to_real [[(1, 2); (3, 4)]; [(5, 6); (7, 8)]] = [[1; 3]; [5; 7]; [2; 4]; [6; 8]].
Proof. reflexivity. Qed.

(** C57: false in general.  True if the first method is blind or both or none of them is data-aided:
    then the call is stage 1 with the references of method 1 followed by stage 2 with those of method 2. *)
Theorem C57_references_partial : forall E l os k mu wxy n tr niter m1 m2 modes sched sy co r1 r2,
  needs m1 sy co r1 -> needs m2 sy co r2 -> (blind m1 \/ (data_aided m1 <-> data_aided m2)) ->
  dual_mode_equalisation E l os k mu wxy n tr niter (m1, m2) (user_symbols [m1; m2] None sy (Some co)) modes sched =
  (let! s1 := equalise_signal E l os k (fst mu) wxy n (fst tr) (fst niter) m1 r1 modes (fst sched) in
   let! s2 := equalise_signal E l os k (snd mu) (Some (fst s1)) n (snd tr) (snd niter) m2 r2 modes (snd sched) in
   let! e := core_apply_filter (ArrC E) l os (fst s2) n modes in Ok (e, fst s2)).
Proof. exact c57. Qed.
Print Assumptions C57_references_partial.
(** ("sbd_data", "sbd"): stage 1 reads the alphabet as the sent sequence and runs out of it *)
Theorem C57_mixed_refuted : exists E l sy co mu sched,
  (exists r, (let! s1 := equalise_signal E l 1 1 mu None 1 (Some 2%Z) 1 "sbd_data" (Some sy) None sched in
     equalise_signal E l 1 1 mu (Some (fst s1)) 1 (Some 2%Z) 1 "sbd" (Some co) None sched) = Ok r) /\
  dual_mode_equalisation E l 1 1 (mu, mu) None 1 (Some 2%Z, Some 2%Z) (1%nat, 1%nat) ("sbd_data"%string, "sbd"%string)
     (user_symbols ["sbd_data"; "sbd"]%string None sy (Some co)) None (sched, sched) = Err IndexError.
Proof. exact c57_false. Qed.
Print Assumptions C57_mixed_refuted.
(** ("sbd", "sbd_data"): stage 1 decides on the sent sequence *)
Theorem C57_mixed_order_refuted : forall sy co : array, needs "sbd" sy co (Some co) /\ user_symbols ["sbd"; "sbd_data"]%string None sy (Some co) = Some sy.
Proof. intros sy co. split; [right; left; split; [cbn; tauto|reflexivity]|reflexivity]. Qed.
Print Assumptions C57_mixed_order_refuted.
Example C57_case : forall sy co : array, needs "mcma" sy co None /\ needs "sbd_data" sy co (Some sy) /\ blind "mcma".
Proof.
  intros sy co. split; [right; right; split; [cbn; tauto|reflexivity]|]. split; [left; split; [left; reflexivity|reflexivity]|cbn; tauto].
Qed.

(** C78: false of dual_mode_equalisation with real-valued methods and given modes *)
Theorem C78_equalise : forall E p l os k mu wxy n tr niter m sy modes sched out w, (0 < os)%nat -> (n <= l)%nat -> shape E p l ->
  ~ real_valued (lower m) ->
  match wxy with None => True | Some (TapsC w) => shape3 w p p n | Some (TapsR w) => shape3 w p p n end ->
  equalise_signal_apply E l os k mu wxy n tr niter m sy modes sched = Ok (out, w) ->
  shape out (length (sel_modes modes p)) ((l - n + 1) / os) /\
  exists wt, w = TapsC wt /\ forall j mo i, nth_error (sel_modes modes p) j = Some mo -> (i < (l - n + 1) / os)%nat ->
    cell C0 out j i = fir E (nth mo wt []) n (i * os).
Proof.
  intros E p l os k mu wxy n tr niter m sy modes sched out w Ho Hn HE Hm Hw H.
  assert (Hr : real_method m = false) by (rewrite <- real_method_iff in Hm; now destruct (real_method m)).
  pose proof (apply_rows E p l os k mu wxy n tr niter m sy modes sched out w Ho Hn HE) as Q. unfold nrows in Q. rewrite Hr in Q.
  apply Q; [destruct wxy as [[]|]; exact Hw|exact H].
Qed.
Print Assumptions C78_equalise.
Theorem C78_equalise_real : forall E p l os k mu wxy n tr niter m sy modes sched out w, (0 < os)%nat -> (n <= l)%nat -> shape E p l ->
  real_valued (lower m) ->
  match wxy with None => True | Some (TapsC w) => shape3 w (2 * p) (2 * p) n | Some (TapsR w) => shape3 w (2 * p) (2 * p) n end ->
  equalise_signal_apply E l os k mu wxy n tr niter m sy modes sched = Ok (out, w) ->
  shape out (length (sel_modes modes p)) ((l - n + 1) / os) /\
  exists wt, w = TapsR wt /\ forall j mo i, nth_error (sel_modes modes p) j = Some mo -> (i < (l - n + 1) / os)%nat ->
    cell C0 out j i = (fir_real (convert_sig_to_real E) (nth mo wt []) n (i * os),
                       fir_real (convert_sig_to_real E) (nth (p + mo) wt []) n (i * os)).
Proof.
  intros E p l os k mu wxy n tr niter m sy modes sched out w Ho Hn HE Hm Hw H. apply real_method_iff in Hm.
  pose proof (apply_rows E p l os k mu wxy n tr niter m sy modes sched out w Ho Hn HE) as Q. unfold nrows in Q. rewrite Hm in Q.
  apply Q; [destruct wxy as [[]|]; exact Hw|exact H].
Qed.
Print Assumptions C78_equalise_real.
Theorem C78_dual_partial : forall E p l os k mu wxy n tr niter m1 m2 sy modes sched out w, (0 < os)%nat -> (n <= l)%nat -> shape E p l ->
  ~ real_valued (lower m1) -> ~ real_valued (lower m2) ->
  match wxy with None => True | Some (TapsC w) => shape3 w p p n | Some (TapsR w) => shape3 w p p n end ->
  dual_mode_equalisation E l os k mu wxy n tr niter (m1, m2) sy modes sched = Ok (out, w) ->
  shape out (length (sel_modes modes p)) ((l - n + 1) / os) /\
  exists wt, w = TapsC wt /\ forall j mo i, nth_error (sel_modes modes p) j = Some mo -> (i < (l - n + 1) / os)%nat ->
    cell C0 out j i = fir E (nth mo wt []) n (i * os).
Proof.
  intros E p l os k mu wxy n tr niter m1 m2 sy modes sched out w Ho Hn HE H1 H2 Hw H.
  assert (R1 : real_method m1 = false) by (rewrite <- real_method_iff in H1; now destruct (real_method m1)).
  assert (R2 : real_method m2 = false) by (rewrite <- real_method_iff in H2; now destruct (real_method m2)).
  pose proof (dual_rows E p l os k mu wxy n tr niter m1 m2 sy modes sched out w Ho Hn HE) as Q. unfold nrows in Q. rewrite R1, R2 in Q.
  apply Q; [destruct wxy as [[]|]; exact Hw|reflexivity|discriminate|exact H].
Qed.
Print Assumptions C78_dual_partial.
Theorem C78_dual_real_partial : forall E p l os k mu wxy n tr niter m1 m2 sy sched out w, (0 < os)%nat -> (n <= l)%nat -> shape E p l ->
  real_valued (lower m1) -> real_valued (lower m2) ->
  match wxy with None => True | Some (TapsC w) => shape3 w (2 * p) (2 * p) n | Some (TapsR w) => shape3 w (2 * p) (2 * p) n end ->
  dual_mode_equalisation E l os k mu wxy n tr niter (m1, m2) sy None sched = Ok (out, w) ->
  shape out p ((l - n + 1) / os) /\
  exists wt, w = TapsR wt /\ forall mo i, (mo < p)%nat -> (i < (l - n + 1) / os)%nat ->
    cell C0 out mo i = (fir_real (convert_sig_to_real E) (nth mo wt []) n (i * os),
                        fir_real (convert_sig_to_real E) (nth (p + mo) wt []) n (i * os)).
Proof.
  intros E p l os k mu wxy n tr niter m1 m2 sy sched out w Ho Hn HE H1 H2 Hw H. apply real_method_iff in H1, H2.
  pose proof (dual_rows E p l os k mu wxy n tr niter m1 m2 sy None sched out w Ho Hn HE) as Q. unfold nrows in Q. rewrite H1, H2 in Q.
  destruct Q as [A (wt & B & D)]; [destruct wxy as [[]|]; exact Hw|reflexivity|reflexivity|exact H|].
  cbn [sel_modes] in A, D. rewrite seq_length in A. split; [exact A|]. exists wt. split; [exact B|]. intros mo i Hmo Hi.
  apply D; [|exact Hi]. rewrite (nth_error_nth' _ 0%nat) by (rewrite seq_length; exact Hmo). now rewrite seq_nth.
Qed.
Print Assumptions C78_dual_real_partial.
(** one polarisation, modes = [0]: the equalised signal is empty *)
Theorem C78_dual_real_modes_refuted : exists w,
  dual_mode_equalisation [[C1; C1; C1]] 3 1 2 (1, 1) None 1 (Some 2%Z, Some 2%Z) (1%nat, 1%nat)
    ("dd_data_real"%string, "dd_data_real"%string) (Some (ArrC [[C1; C1]])) (Some [0%nat])
    (one_by_one 2 false 1 [0; 1]%nat, one_by_one 2 false 1 [0; 1]%nat) = Ok ([], w).
Proof. exact c78_false. Qed.
Print Assumptions C78_dual_real_modes_refuted.
Example C78_case : exists out w, equalise_signal_apply [repeat C1 20; repeat C1 20] 20 2 2 1 None 3 None 2 "cma" None (Some [1%nat])
    (one_by_one 6 true 2 [1%nat]) = Ok (out, w) /\ length out = 1%nat.
Proof.
  assert (HE : shape [repeat C1 20; repeat C1 20] 2 20) by (split; [reflexivity|repeat constructor]).
  destruct (C51_training_windows [repeat C1 20; repeat C1 20] 2 20 2 2 3 "cma" (Some [1%nat]) HE) as (j & Hj & Ht & _ & H);
    [lia|lia|lia|lia|cbn; tauto|discriminate|discriminate|repeat constructor|].
  destruct (prepare_inv [repeat C1 20; repeat C1 20] 2 20 2 2 None 3 None "cma" None (Some [1%nat]) j HE I Hj) as (_ & _ & _ & Hlt & Hm & _ & Hc).
  assert (Ht6 : j_trsyms j = 6%nat) by (change (cal_training_symbol_len 2 3 20) with 6%Z in Ht; lia).
  cbn in Hm. change (real_method "cma") with false in Hc. cbn iota in Hc. destruct Hc as (_ & HjE & _).
  destruct (H 1 true 2%nat (one_by_one 6 true 2 [1%nat])) as [w Hw].
  { rewrite Hm, Ht6. apply one_by_one_interleaving. repeat constructor; cbn; tauto. }
  destruct (equalise_inv [repeat C1 20; repeat C1 20] 2 20 2 2 1 None 3 None 2 "cma" None (Some [1%nat]) _ w j HE I Hw) as [_ (wt & -> & Hs)].
  destruct (C53_filter_partial [repeat C1 20; repeat C1 20] 2 20 2 wt 2 3 (Some (j_modes j)) ltac:(lia) ltac:(lia) HE Hs Hlt) as (out & Ho & Hsh & _).
  exists out, (TapsC wt). unfold equalise_signal_apply. rewrite Hw. cbn [bind]. rewrite HjE, Ho. cbn [bind]. split; [reflexivity|].
  rewrite (proj1 Hsh). cbn [sel_modes]. now rewrite Hm.
Qed.

(** C79 *)
Theorem C79_step : forall E p l os n t symbols f st st' m it i, shape E p l -> shape3 (s_wx st) p p n -> (m < p)%nat -> (i * os + n <= l)%nat ->
  run C0 Cadd Cmul Cconj Cscal f adapt_step E os n t symbols st [(m, Comp it i)] = Ok st' ->
  let w := nth m (s_wx st) [] in let w' := nth m (s_wx st') [] in
  exists e sr er, nth_error symbols m = Some sr /\ f (fir E w n (i * os)) sr i = Ok e /\
    (forall k j, (k < p)%nat -> (j < n)%nat -> cell C0 w' k j = (cell C0 w k j + Cscal (s_mu st) e * Cconj (cell C0 E k (i * os + j)))%C) /\
    fir E w' n (i * os) = (fir E w n (i * os) + Cscal (s_mu st * window_energy E n (i * os)) e)%C /\
    nth_error (s_err st) m = Some er /\ nth_error (s_err st') m = Some (upd (it * t + i) e er) /\ (it * t + i < length er)%nat.
Proof. exact c79. Qed.
Print Assumptions C79_step.
Theorem C79_step_real : forall E p l os n t symbols f st st' m it i, shape E p l -> shape3 (s_wx st) p p n -> (m < p)%nat -> (i * os + n <= l)%nat ->
  run 0 Rplus Rmult (fun x => x) Rmult f adapt_step_real E os n t symbols st [(m, Comp it i)] = Ok st' ->
  let w := nth m (s_wx st) [] in let w' := nth m (s_wx st') [] in
  exists e sr er, nth_error symbols m = Some sr /\ f (fir_real E w n (i * os)) sr i = Ok e /\
    (forall k j, (k < p)%nat -> (j < n)%nat -> cell 0 w' k j = cell 0 w k j + s_mu st * e * cell 0 E k (i * os + j)) /\
    fir_real E w' n (i * os) = fir_real E w n (i * os) + s_mu st * window_energy_real E n (i * os) * e /\
    nth_error (s_err st) m = Some er /\ nth_error (s_err st') m = Some (upd (it * t + i) e er) /\ (it * t + i < length er)%nat.
Proof. exact c79_real. Qed.
Print Assumptions C79_step_real.
Theorem C79_dd : forall E p l os n t symbols st st' m it i f sr, shape E p l -> shape3 (s_wx st) p p n -> (m < p)%nat -> (i * os + n <= l)%nat ->
  select_error "dd" = Ok f -> nth_error symbols m = Some sr ->
  let x := fir E (nth m (s_wx st) []) n (i * os) in
  (exists a, In a sr /\ Cabs (x - a)%C ^ 2 < 1000) ->
  run C0 Cadd Cmul Cconj Cscal f adapt_step E os n t symbols st [(m, Comp it i)] = Ok st' ->
  exists s, nearest_symbol sr x s /\
    (s - fir E (nth m (s_wx st') []) n (i * os))%C = Cscal (1 - s_mu st * window_energy E n (i * os)) (s - x)%C.
Proof. exact c79_dd. Qed.
Print Assumptions C79_dd.
Theorem C79_cma : forall E p l os n t symbols st st' m it i f r rs, shape E p l -> shape3 (s_wx st) p p n -> (m < p)%nat -> (i * os + n <= l)%nat ->
  select_error "cma" = Ok f -> nth_error symbols m = Some (r :: rs) ->
  run C0 Cadd Cmul Cconj Cscal f adapt_step E os n t symbols st [(m, Comp it i)] = Ok st' ->
  let x := fir E (nth m (s_wx st) []) n (i * os) in
  fir E (nth m (s_wx st') []) n (i * os) = Cscal (1 + s_mu st * window_energy E n (i * os) * (Re r - Cnorm2 x)) x.
Proof. exact c79_cma. Qed.
Print Assumptions C79_cma.
(** two modes, one tap: mode 0 sees 1, the target is 2 and the step size 1, so the output becomes 2 *)
Example C79_case : exists st, run0 (start 0 Ex 2 1 1 wx0) [(0%nat, Comp 0 0)] = Ok st /\
  fir_real Ex (nth 0 (s_wx st) []) 1 0 = 2 /\ nth_error (s_wx st) 1 = Some [[0]; [1]].
Proof.
  eexists. split; [cbv -[Rplus Rmult Rminus Rabs IZR pow]; reflexivity|]. cbn [s_wx nth nth_error]. split; [|reflexivity].
  unfold fir_real, Ex. cbn [length]. rewrite !rsum_S, !rsum_0. unfold cell. cbn [nth Nat.add]. repeat rewrite Rabs_pow2. ring.
Qed.
