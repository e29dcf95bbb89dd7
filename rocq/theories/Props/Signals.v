(** Properties C40-C44 and C95-C98: signal objects, resampling, signals from symbols and bits, hybrid signals. *)
From Coq Require Import String List ZArith QArith Qabs Reals Bool Arith Permutation Lia Lra.
From Verif Require Import Common.Py Common.Cplx Model.Gray Model.Constellation Model.Decision Model.Helpers Model.Filters
  Model.SignalObj Model.SignalRates Model.Fractions Model.Resample Model.SignalFrom Model.Hybrid
  Spec.SignalObjS Spec.Closest Spec.HybridS Spec.Geometry Spec.Metrics Spec.ImpairSpec
  Proofs.SignalObjP Proofs.SignalObjP3 Proofs.SignalObjP4 Proofs.SignalObjP5 Proofs.ResampleP Proofs.SignalFromP
  Proofs.HybridP Proofs.HybridQ Proofs.HybridR.
Import ListNotations.
Open Scope string_scope.
Open Scope list_scope.
Open Scope nat_scope.

(** C40.  Slices, views, copies, results of arithmetic ([Derive]), saving and loading ([Pickle]) and
    in-place changes of the samples, in any order: every attribute that is documented or used keeps
    what it shows. *)
Theorem C40_operations_partial : forall (D : Type) (l : list (op D)) (h : heap D) o c,
  heap_ok h -> is_signal c = true -> class_of h o = Some c -> no_self h o ->
  exists h' o', run (h, o) l = Ok (h', o') /\ heap_ok h' /\ class_of h' o' = Some c /\ no_self h' o' /\
    forall a, observe h' o' [a] = observe h o [a].
Proof. exact @run_observe1. Qed.
Print Assumptions C40_operations_partial.

(** without in-place changes also what is seen through chains of attributes (sig.symbols.bits) *)
Theorem C40_chains_partial : forall (D : Type) (l : list (op D)) (h : heap D) o c,
  heap_ok h -> is_signal c = true -> class_of h o = Some c ->
  (forall x, In x l -> match x with InPlace _ => False | _ => True end) ->
  exists h' o', run (h, o) l = Ok (h', o') /\ heap_ok h' /\ class_of h' o' = Some c /\
    forall a path, observe h' o' (a :: path) = observe h o (a :: path).
Proof. exact @run_observe. Qed.
Print Assumptions C40_chains_partial.

(** saving and loading: the same class, samples and attributes *)
Theorem C40_save_load_partial : forall (D : Type) (h : heap D) o c, heap_ok h -> class_of h o = Some c ->
  exists h', pickle h o = Ok (h', length h + o) /\ heap_ok h' /\ class_of h' (length h + o) = Some c /\
    samples_of h' (length h + o) = samples_of h o /\
    (forall path, observe h' (length h + o) path = observe h o path) /\
    (no_self h o -> no_self h' (length h + o)).
Proof. exact @pickle_observe. Qed.
Print Assumptions C40_save_load_partial.

(** the constructors make such objects *)
Theorem C40_qam_constructor : forall (D : Type) (h : heap D) c data bits bitmap encoding coded M fb code,
  heap_ok h -> (c = QAM \/ c = PSK \/ c = FromBERT \/ c = Resampled) -> bits < length h ->
  exists h' o, qam_new h c data bits bitmap encoding coded M fb code = Ok (h', o) /\ heap_ok h' /\ no_self h' o /\
    class_of h' o = Some c /\ samples_of h' o = Some data /\
    observe h' o ["_fb"] = Some (SLeaf fb) /\ observe h' o ["_fs"] = Some (SLeaf fb) /\ observe h' o ["_M"] = Some (SLeaf M) /\
    observe h' o ["_coded_symbols"] = Some (SLeaf coded) /\ observe h' o ["_bits"] = observe h bits [] /\
    observe h' o ["_symbols"] = Some (SArray c data) /\
    (forall i, i < length h -> nth_error h' i = nth_error h i).
Proof. exact @qam_ok. Qed.
Print Assumptions C40_qam_constructor.
Theorem C40_symbol_only_constructor : forall (D : Type) (h : heap D) data coded M fb, heap_ok h ->
  exists h' o, symbol_only_new h data coded M fb = Ok (h', o) /\ heap_ok h' /\ no_self h' o /\
    class_of h' o = Some SymbolOnly /\ samples_of h' o = Some data /\
    observe h' o ["_fb"] = Some (SLeaf fb) /\ observe h' o ["_fs"] = Some (SLeaf fb) /\ observe h' o ["_M"] = Some (SLeaf M) /\
    observe h' o ["_coded_symbols"] = Some (SLeaf coded) /\ observe h' o ["_symbols"] = Some (SArray SymbolOnly data) /\
    (forall i, i < length h -> nth_error h' i = nth_error h i).
Proof. exact @symbol_only_ok. Qed.
Print Assumptions C40_symbol_only_constructor.
Theorem C40_tdhqam_constructor : forall (D : Type) (h : heap D) data s1 s2 scale fr M fb pm,
  heap_ok h -> s1 < length h -> s2 < length h ->
  exists h' o, tdhqam_new h data s1 s2 scale fr M fb pm = Ok (h', o) /\ heap_ok h' /\ no_self h' o /\
    class_of h' o = Some TDHQAM /\ samples_of h' o = Some data /\
    observe h' o ["_fb"] = Some (SLeaf fb) /\ observe h' o ["_fs"] = Some (SLeaf fb) /\ observe h' o ["_fr"] = Some (SLeaf fr) /\
    observe h' o ["_powratio"] = Some (SLeaf scale) /\
    observe h' o ["_symbols_M1"] = observe h s1 [] /\ observe h' o ["_symbols_M2"] = observe h s2 [] /\
    attr h' o "_power_method" = Some (VLeaf pm) /\ attr h' o "_symbols" = None.
Proof. exact @tdhqam_ok. Qed.
Print Assumptions C40_tdhqam_constructor.
Theorem C40_pilots_constructor : forall (D : Type) (h : heap D) data pilots symbs fb fs frame_len seq_len ins_rat idx_dat idx_pil scale,
  heap_ok h -> pilots < length h -> symbs < length h -> class_of h symbs <> Some WithPilots ->
  exists h' o, pilots_new h data pilots symbs fb fs frame_len seq_len ins_rat idx_dat idx_pil scale = Ok (h', o) /\ heap_ok h' /\ no_self h' o /\
    class_of h' o = Some WithPilots /\ samples_of h' o = Some data /\
    observe h' o ["_fb"] = Some (SLeaf fb) /\ observe h' o ["_fs"] = Some (SLeaf fs) /\ observe h' o ["_frame_len"] = Some (SLeaf frame_len) /\
    observe h' o ["_pilots"] = observe h pilots [] /\ observe h' o ["_symbols"] = observe h symbs [].
Proof. exact @pilots_new_ok. Qed.
Print Assumptions C40_pilots_constructor.

(** resample sets the sampling rate, copies the reference symbols and keeps everything else *)
Theorem C40_resample_partial : forall (D : Type) (h : heap D) c o own data fnew s cs,
  heap_ok h -> is_signal c = true -> class_of h o = Some c ->
  In "_symbols" (attributes c) -> attr h o "_symbols" = Some (VRef s) -> class_of h s = Some cs -> is_signal cs = true ->
  exists h' n, resample h o own data fnew = Ok (h', n) /\
    class_of h' n = Some c /\ samples_of h' n = (if own then samples_of h o else Some data) /\
    attr h' n "_fs" = Some (VLeaf fnew) /\
    (exists s', attr h' n "_symbols" = Some (VRef s') /\ class_of h' s' = Some cs /\ samples_of h' s' = samples_of h s /\
       (forall i, i < length h -> s' <> i) /\ forall a, In a (attributes cs) -> attr h' s' a = attr h s a) /\
    (forall a, In a (attributes c) -> a <> "_fs" -> a <> "_symbols" -> attr h' n a = attr h o a) /\
    (forall i, i < length h -> nth_error h' i = nth_error h i).
Proof. exact @resample_ok. Qed.
Print Assumptions C40_resample_partial.

(** What is lost.  np.concatenate (vstack, hstack, append) of signals gives an object of the class
    without any attribute. *)
Theorem C40_concatenate_refuted : forall (D : Type) (h : heap D) o c data, class_of h o = Some c ->
  exists h', concatenate h o data = Ok (h', length h) /\ class_of h' (length h) = Some c /\ samples_of h' (length h) = Some data /\
    forall a, getattr h' (length h) a = Err (if cls_eqb c WithPilots then RecursionError else AttributeError).
Proof. exact @concatenate_lost. Qed.
Print Assumptions C40_concatenate_refuted.
(** Attributes outside the inherited lists are dropped by slicing and by saving, for example
    _power_method of hybrid signals, _seed and _rand_state of bits. *)
Theorem C40_slice_drops_refuted : forall (D : Type) (h : heap D) o c data a, heap_ok h -> is_signal c = true -> class_of h o = Some c ->
  a <> "_symbols" -> ~ In a (attributes c) -> exists h', derive h o data = Ok (h', length h) /\ attr h' (length h) a = None.
Proof. exact @derive_drops. Qed.
Print Assumptions C40_slice_drops_refuted.
Theorem C40_save_drops_refuted : forall (D : Type) (h : heap D) o c a, heap_ok h -> class_of h o = Some c -> ~ In a (attributes c) ->
  exists h', pickle h o = Ok (h', length h + o) /\ attr h' (length h + o) a = None.
Proof. exact @pickle_drops. Qed.
Print Assumptions C40_save_drops_refuted.
(** Hybrid signals have no reference symbols and cannot be resampled. *)
Theorem C40_tdhqam_resample_refuted : forall (D : Type) (h : heap D) o own data fnew, heap_ok h -> class_of h o = Some TDHQAM -> attr h o "_symbols" = None ->
  resample h o own data fnew = Err AttributeError.
Proof. exact @resample_no_symbols. Qed.
Print Assumptions C40_tdhqam_resample_refuted.
(** The reference symbols of a copy of sig.symbols are sig itself: changing sig changes them. *)
Theorem C40_alias_refuted : forall (D : Type) (h : heap D) c data bits bitmap encoding coded M fb code,
  heap_ok h -> (c = QAM \/ c = PSK \/ c = FromBERT \/ c = Resampled) -> bits < length h ->
  exists h1 o s h2 t, qam_new h c data bits bitmap encoding coded M fb code = Ok (h1, o) /\ attr h1 o "_symbols" = Some (VRef s) /\
    derive h1 s data = Ok (h2, t) /\ observe h2 t ["_symbols"] = Some (SArray c data) /\
    forall data2, observe (in_place h2 o data2) t ["_symbols"] = Some (SArray c data2).
Proof. exact @alias. Qed.
Print Assumptions C40_alias_refuted.

Example C40_case :
  (let! b := random_bits [] [[1; 0; 1; 1]] 7 (VLeaf 5) in
   let! s := qam_new (fst b) QAM [[20; 30]] (snd b) 91 92 93 4 10 94 in
   let! r := run s [Derive [[20]]; Pickle; InPlace [[55]]; Derive [[56; 57]]] in
   Ok (samples_of (fst r) (snd r), map (fun a => observe (fst r) (snd r) [a]) ["_fb"; "_fs"; "_M"; "_coded_symbols"; "_bits"; "_symbols"]))
  = Ok (Some [[56; 57]], [Some (SLeaf 10); Some (SLeaf 10); Some (SLeaf 4); Some (SLeaf 93);
                          Some (SArray RandomBits [[1; 0; 1; 1]]); Some (SArray QAM [[20; 30]])]).
Proof. vm_compute. reflexivity. Qed.

(** C41.  Attributes not given are kept, those given are set; keyword names are attribute names
    without the underscore and not the name of a property that cannot be set. *)
Theorem C41_kept_partial : forall (D : Type) rate (h : heap D) o arr c kw,
  heap_ok h -> is_signal c = true -> class_of h o = Some c -> class_of h arr <> None ->
  (lookup "fb" kw = None \/ lookup "fs" kw <> None) -> NoDup (map fst kw) ->
  (forall k, In k (map fst kw) -> ~ In k (attributes c)) ->
  (forall k, In k (map fst kw) -> ~ In (append "_" k) (attributes c) -> ~ In k (readonly c)) ->
  exists h', recreate rate h o arr kw = Ok (h', length h) /\
    class_of h' (length h) = Some c /\ samples_of h' (length h) = samples_of h arr /\
    (forall k, In (append "_" k) (attributes c) ->
       attr h' (length h) (append "_" k) = match lookup k kw with Some v => Some v | None => attr h o (append "_" k) end) /\
    (forall k v, ~ In (append "_" k) (attributes c) -> lookup k kw = Some v -> attr h' (length h) k = Some v) /\
    (forall i, i < length h -> nth_error h' i = nth_error h i).
Proof. exact @recreate_kept. Qed.
Print Assumptions C41_kept_partial.
(** only the symbol rate given: fs = n * fb becomes n * fb' *)
Theorem C41_ratio_partial : forall (X : Type) (h : heap (Q + X)) o arr c kw fs fb fb' n,
  heap_ok h -> is_signal c = true -> class_of h o = Some c -> class_of h arr <> None ->
  attr h o "_fs" = Some (VLeaf (inl fs)) -> attr h o "_fb" = Some (VLeaf (inl fb)) -> ~ (fb == 0)%Q -> (fs == inject_Z n * fb)%Q ->
  lookup "fb" kw = Some (VLeaf (inl fb')) -> lookup "fs" kw = None -> NoDup (map fst kw) ->
  (forall k, In k (map fst kw) -> ~ In k (attributes c)) ->
  (forall k, In k (map fst kw) -> ~ In (append "_" k) (attributes c) -> ~ In k (readonly c)) ->
  exists h', recreate os_rate h o arr kw = Ok (h', length h) /\
    class_of h' (length h) = Some c /\ samples_of h' (length h) = samples_of h arr /\
    attr h' (length h) "_fs" = Some (VLeaf (inl (inject_Z n * fb')%Q)) /\ attr h' (length h) "_fb" = Some (VLeaf (inl fb')) /\
    (forall k, In (append "_" k) (attributes c) -> k <> "fs" ->
       attr h' (length h) (append "_" k) = match lookup k kw with Some v => Some v | None => attr h o (append "_" k) end) /\
    (forall i, i < length h -> nth_error h' i = nth_error h i).
Proof. exact @recreate_ratio. Qed.
Print Assumptions C41_ratio_partial.
(** every other oversampling ratio changes: it is rounded to an integer *)
Theorem C41_ratio_refuted : forall (X : Type) (h : heap (Q + X)) o arr c fs fb fb',
  heap_ok h -> is_signal c = true -> class_of h o = Some c -> class_of h arr <> None ->
  attr h o "_fs" = Some (VLeaf (inl fs)) -> attr h o "_fb" = Some (VLeaf (inl fb)) -> ~ (fb == 0)%Q -> ~ (fb' == 0)%Q ->
  (forall n, ~ (fs == inject_Z n * fb)%Q) ->
  exists h' r, recreate os_rate h o arr [("fb", VLeaf (inl fb'))] = Ok (h', length h) /\
    attr h' (length h) "_fs" = Some (VLeaf (inl r)) /\ attr h' (length h) "_fb" = Some (VLeaf (inl fb')) /\ ~ (r / fb' == fs / fb)%Q.
Proof. exact @recreate_wrong. Qed.
Print Assumptions C41_ratio_refuted.

Example C41_case :
  (let! b := random_bits [] [[inr 1; inr 0]] (inr 7) VNone in
   let! s := qam_new (fst b) QAM [[inr 20; inr 30]] (snd b) (inr 91) (inr 92) (inr 93) (inr 4) (inl 10%Q) (inr 94) in
   let! r := resample (fst s) (snd s) false [[inr 20; inr 25; inr 30; inr 35]] (inl 20%Q) in
   let! q := recreate os_rate (fst r) (snd r) (snd s) [("fb", VLeaf (inl 7%Q)); ("M", VLeaf (inr 16))] in
   Ok (map (fun a => observe (fst q) (snd q) [a]) ["_fb"; "_fs"; "_M"; "_coded_symbols"]))
  = Ok [Some (SLeaf (inl 7%Q)); Some (SLeaf (inl (inject_Z 2 * 7)%Q)); Some (SLeaf (inr 16)); Some (SLeaf (inr 93))].
Proof. vm_compute. reflexivity. Qed.

(** C42.  fnew/fold = u/d in lowest terms with d at most 10^6: ceil(n*u/d) samples in every mode. *)
Theorem C42_length_partial : forall poly arr fnew fold fb Ts beta taps ren fftconv u d,
  ~ (fold == 0)%Q -> ~ (fb == 0)%Q -> (1001 # 100000000 < Qabs (fnew / fold - 1))%Q ->
  (fnew / fold == Zpos u # d)%Q -> Z.gcd (Zpos u) (Zpos d) = 1%Z -> (d <= 1000000)%positive ->
  (0 < beta <= 1)%R -> Ts <> Some 0%R -> (fftconv = true \/ taps = None) -> (match taps with Some n => 2 <= n | None => ~ In [] arr end) ->
  exists out, resample_rows poly arr fnew fold fb Ts (Some beta) taps ren fftconv = Ok out /\
    Forall2 (fun x y => ceil_of (Z.of_nat (length x)) (Zpos u) (Zpos d) (Z.of_nat (length y))) arr out.
Proof. exact rows_exact. Qed.
Print Assumptions C42_length_partial.
(** any ratio from 10^-6 on: u/d is the closest fraction with denominator at most 10^6 *)
Theorem C42_closest_partial : forall poly arr fnew fold fb Ts beta taps ren fftconv,
  ~ (fold == 0)%Q -> ~ (fb == 0)%Q -> (1001 # 100000000 < Qabs (fnew / fold - 1))%Q -> (1 # 1000000 <= fnew / fold)%Q ->
  (0 < beta <= 1)%R -> Ts <> Some 0%R -> (fftconv = true \/ taps = None) -> (match taps with Some n => 2 <= n | None => ~ In [] arr end) ->
  exists u d out, closest 1000000 (fnew / fold) (Zpos u # d) /\ resample_rows poly arr fnew fold fb Ts (Some beta) taps ren fftconv = Ok out /\
    Forall2 (fun x y => ceil_of (Z.of_nat (length x)) (Zpos u) (Zpos d) (Z.of_nat (length y))) arr out.
Proof. exact rows_closest. Qed.
Print Assumptions C42_closest_partial.
(** without beta: scipy's polyphase resampler gets the factors in lowest terms *)
Theorem C42_polyphase : forall poly arr fnew fold fb Ts taps ren fftconv u d out,
  ~ (fold == 0)%Q -> ~ (fb == 0)%Q -> (1001 # 100000000 < Qabs (fnew / fold - 1))%Q ->
  (fnew / fold == Zpos u # d)%Q -> Z.gcd (Zpos u) (Zpos d) = 1%Z -> (d <= 1000000)%positive ->
  Forall2 (fun x y => poly x (Zpos u) (Zpos d) None = Ok y) arr out ->
  resample_rows poly arr fnew fold fb Ts None taps ren fftconv = Ok (map (map Some) out).
Proof. exact rows_poly. Qed.
Print Assumptions C42_polyphase.
(** the own rate *)
Theorem C42_own_rate : forall poly arr fnew fold fb Ts beta taps ren fftconv, ~ (fold == 0)%Q -> (fnew == fold)%Q ->
  resample_rows poly arr fnew fold fb Ts beta taps ren fftconv = Ok (map (map Some) arr).
Proof. exact rows_same. Qed.
Print Assumptions C42_own_rate.
(** zero insertion: the samples at multiples of [up], zeros between; decimation undoes it *)
Theorem C42_zero_insertion : forall up x, (0 < up)%Z -> exists z, zero_insert up x = Ok z /\ length z = length x * Z.to_nat up /\
  stride (Z.to_nat up) z = x /\ forall i r, r < Z.to_nat up -> nth_error z (i * Z.to_nat up + r) =
    match nth_error x i with None => None | Some v => Some (if r =? 0 then v else C0) end.
Proof. exact zero_insert_ok. Qed.
Print Assumptions C42_zero_insertion.
(** Rates that are close but not equal are not resampled; ratios near zero fail. *)
Theorem C42_almost_one_refuted : forall poly x fb Ts beta taps ren fftconv,
  resample_rows poly [[x]] 100001 100000 fb Ts beta taps ren fftconv = Ok [[Some x]] /\ ~ ceil_of 1 100001 100000 1.
Proof. exact rows_almost_one. Qed.
Print Assumptions C42_almost_one_refuted.
Theorem C42_tiny_refuted : forall poly signal Ts beta taps ren, (0 < beta <= 1)%R ->
  rrcos_resample poly signal 3000000 1 Ts (Some beta) taps ren true = Err ValueError.
Proof. exact resample_tiny. Qed.
Print Assumptions C42_tiny_refuted.

Example C42_case : forall poly a b c, exists y, resample_rows poly [[a; b; c]] 3 2 1 None (Some (1 / 2)%R) None false true = Ok [y] /\ length y = 5.
Proof.
  intros poly a b c. destruct (C42_length_partial poly [[a; b; c]] 3 2 1 None (1 / 2)%R None false true 3 2) as (out & E & H);
    try (intros Z; discriminate Z); try reflexivity; try lra; try discriminate; try (intros [K|[]]; discriminate K); try (now left).
  inversion H as [|? y ? l' Hy Hl]; subst. inversion Hl; subst. exists y. split; [exact E|].
  unfold ceil_of in Hy. cbn [length] in Hy. lia.
Qed.

(** C95: renormalisation *)
Theorem C95_renormalise_partial : forall poly signal fold fnew Ts beta taps fftconv y0,
  rrcos_resample poly signal fold fnew Ts (Some beta) taps false fftconv = Ok (map Some y0) -> ~ constant y0 ->
  exists v, rrcos_resample poly signal fold fnew Ts (Some beta) taps true fftconv = Ok (map Some v) /\ sample_mean v = C0 /\ sample_power v = sample_power signal.
Proof. exact resample_renorm_power. Qed.
Print Assumptions C95_renormalise_partial.
(** without a filter the flag is not passed on *)
Theorem C95_no_filter_refuted : forall poly signal fold fnew Ts taps fftconv,
  rrcos_resample poly signal fold fnew Ts None taps true fftconv = rrcos_resample poly signal fold fnew Ts None taps false fftconv.
Proof. exact resample_renorm_ignored. Qed.
Print Assumptions C95_no_filter_refuted.

(** C43.  One mode: the bits modulate to the decided symbols. *)
Theorem C43_one_mode_partial : forall k row, 1 <= k -> exists s bits,
  from_symbol_array k [row] = Ok s /\ sig_bits s = Bits1 bits /\
  Forall2 (Forall2 (nearest (coded_symbols (sig_map s)))) [row] (sig_samples s) /\
  length bits = k * length row /\
  modulate (sig_map s) [bits] = Ok (sig_samples s).
Proof. exact from_symbols_one. Qed.
Print Assumptions C43_one_mode_partial.
(** several modes: only those of the last mode are kept *)
Theorem C43_last_mode_partial : forall k symbs, 1 <= k -> symbs <> [] -> exists s bits,
  from_symbol_array k symbs = Ok s /\ sig_bits s = Bits1 bits /\
  Forall2 (Forall2 (nearest (coded_symbols (sig_map s)))) symbs (sig_samples s) /\
  length bits = k * length (last symbs []) /\
  modulate (sig_map s) [bits] = Ok [last (sig_samples s) []].
Proof. exact from_symbols_last. Qed.
Print Assumptions C43_last_mode_partial.
Theorem C43_several_modes_refuted : forall k symbs n, 1 <= k -> 2 <= length symbs -> 1 <= n -> (forall row, In row symbs -> length row = n) ->
  exists s bits, from_symbol_array k symbs = Ok s /\ sig_bits s = Bits1 bits /\ length bits < k * (length symbs * n) /\
    length (concat symbs) = length symbs * n.
Proof. exact from_symbols_several. Qed.
Print Assumptions C43_several_modes_refuted.

Example C43_case : exists s bits, from_symbol_array 2 [[(1, 1)%R; (-1, 2)%R]] = Ok s /\ sig_bits s = Bits1 bits /\ length bits = 4 /\
  modulate (sig_map s) [bits] = Ok (sig_samples s).
Proof. destruct (C43_one_mode_partial 2 [(1, 1)%R; (-1, 2)%R] ltac:(lia)) as (s & bits & E & Hb & _ & Hl & Hm). exists s, bits. auto. Qed.

(** C96.  Symbols of the constellation (at any power) in which every point occurs are kept. *)
Theorem C96_full_alphabet_partial : forall k c symbs, 1 <= k -> (0 < c)%R ->
  (forall s, In s (concat symbs) <-> exists z, In z (cal_symbols_qam k) /\ s = Cscal c (ZtoC z)) ->
  exists s bits, from_symbol_array k symbs = Ok s /\ sig_samples s = symbs /\
    Permutation (coded_symbols (sig_map s)) (map (fun z => Cscal c (ZtoC z)) (cal_symbols_qam k)) /\
    sig_bits s = Bits1 bits /\ modulate (sig_map s) [bits] = Ok [last symbs []].
Proof. exact from_symbols_full. Qed.
Print Assumptions C96_full_alphabet_partial.
(** With points missing the alphabet is scaled wrongly and the symbols move. *)
Theorem C96_corner_refuted : exists mp p s, qam_mapping 4 = Ok mp /\ In p (coded_symbols mp) /\
  from_symbol_array 4 [[p]] = Ok s /\ sig_samples s <> [[p]].
Proof. exact from_symbols_corner. Qed.
Print Assumptions C96_corner_refuted.

Example C96_case : exists s, from_symbol_array 1 [[(3, 0)%R; (-3, 0)%R; (3, 0)%R]] = Ok s /\ sig_samples s = [[(3, 0)%R; (-3, 0)%R; (3, 0)%R]].
Proof.
  destruct (C96_full_alphabet_partial 1 3 [[(3, 0)%R; (-3, 0)%R; (3, 0)%R]] ltac:(lia) ltac:(lra)) as (s & b & E & H & _); [|eauto].
  assert (A : cal_symbols_qam 1 = [(-1, 0)%Z; (1, 0)%Z]) by reflexivity. rewrite A.
  assert (P1 : (3, 0)%R = Cscal 3 (ZtoC (1, 0)%Z)) by (unfold Cscal, ZtoC; cbn [fst snd]; f_equal; lra).
  assert (P2 : (-3, 0)%R = Cscal 3 (ZtoC (-1, 0)%Z)) by (unfold Cscal, ZtoC; cbn [fst snd]; f_equal; lra).
  intros x. cbn [concat app In]. split.
  - intros [<-|[<-|[<-|[]]]]; [exists (1, 0)%Z|exists (-1, 0)%Z|exists (1, 0)%Z]; auto.
  - intros (z & [<-|[<-|[]]] & ->); rewrite ?P1, ?P2; auto.
Qed.

(** C97: from_bit_array; whole symbols: the bits attribute is what the signal carries *)
Theorem C97_whole_symbols_partial : forall k bits, 1 <= k <= 16 -> (forall row, In row bits -> length row mod k = 0) -> exists s,
  from_bit_array k bits = Ok s /\ sig_bits s = Bits2 bits /\ modulate (sig_map s) bits = Ok (sig_samples s) /\ demodulate (sig_map s) (sig_samples s) = Ok bits.
Proof. exact from_bits_whole. Qed.
Print Assumptions C97_whole_symbols_partial.
(** every length: the bits are cut for modulation *)
Theorem C97_truncated_partial : forall k bits, 1 <= k <= 16 -> exists s out,
  from_bit_array k bits = Ok s /\ sig_bits s = Bits2 bits /\ qam_mapping k = Ok (sig_map s) /\ sig_samples s = out /\
  Forall2 (fun b syms => length syms = length b / k) bits out /\
  demodulate (sig_map s) out = Ok (map (fun b => firstn (length b / k * k) b) bits).
Proof. exact from_bits. Qed.
Print Assumptions C97_truncated_partial.
(** but not in the attribute *)
Theorem C97_truncated_refuted : forall k bits, 1 <= k <= 16 -> (exists row, In row bits /\ length row mod k <> 0) -> exists s,
  from_bit_array k bits = Ok s /\ sig_bits s = Bits2 bits /\ demodulate (sig_map s) (sig_samples s) <> Ok bits.
Proof. exact from_bits_kept. Qed.
Print Assumptions C97_truncated_refuted.

Example C97_case : exists s, from_bit_array 2 [[true; false; false; true]; [true; true; true; true]] = Ok s /\
  demodulate (sig_map s) (sig_samples s) = Ok [[true; false; false; true]; [true; true; true; true]].
Proof.
  destruct (C97_whole_symbols_partial 2 [[true; false; false; true]; [true; true; true; true]] ltac:(lia)) as (s & E & _ & _ & H); [|eauto].
  intros r [<-|[<-|[]]]; reflexivity.
Qed.

(** C44.  The constructor: with f_M2/f_M the fraction closest to fr, every frame of f_M = a + b symbols
    holds a of the first and b of the second signal, in order. *)
Theorem C44_constructor_partial : forall gen1 gen2 cs1 cs2 s modes n fr, (0 <= fr)%Q -> (fr <= 1)%Q ->
  calculate_power_ratio cs1 cs2 "dist" = Ok s ->
  (forall m, length (gen1 m) = modes /\ forall r, In r (gen1 m) -> length r = m) ->
  (forall m, length (gen2 m) = modes /\ forall r, In r (gen2 m) -> length r = m) ->
  exists a b h, 0 < a + b /\ closest 1000000 fr (Z.of_nat b # Pos.of_nat (a + b)) /\
    tdhqam gen1 gen2 cs1 cs2 n fr "dist" = Ok h /\ hy_ratio h = s /\ length (hy_samples h) = modes /\
    hy_M1 h = gen1 (n / (a + b) * a) /\
    hy_M2 h = map (map (fun z : C => Cscal (/ sqrt s) z)) (gen2 (n / (a + b) * b)) /\
    forall i r1 r2, nth_error (hy_M1 h) i = Some r1 -> nth_error (hy_M2 h) i = Some r2 ->
      exists row, nth_error (hy_samples h) i = Some row /\ frames_of_two (n / (a + b)) a b row r1 r2.
Proof. exact tdhqam_frames. Qed.
Print Assumptions C44_constructor_partial.
(** fractions with denominator at most 10^6 are used as they are *)
Theorem C44_fractions : forall a b, 0 < a + b -> Z.gcd (Z.of_nat a) (Z.of_nat b) = 1%Z -> (Pos.of_nat (a + b) <= 1000000)%positive ->
  cal_fractions (Z.of_nat b # Pos.of_nat (a + b)) = Ok (Z.of_nat (a + b), Z.of_nat a, Z.of_nat b).
Proof. exact fractions_exact. Qed.
Print Assumptions C44_fractions.
(** from two arrays that fill whole frames *)
Theorem C44_from_arrays_partial : forall a b n syms1 cs1 syms2 cs2 s fr,
  0 < a + b -> cal_fractions fr = Ok (Z.of_nat (a + b), Z.of_nat a, Z.of_nat b) ->
  calculate_power_ratio cs1 cs2 "dist" = Ok s -> length syms1 = length syms2 ->
  (forall r, In r syms1 -> length r = n * a) -> (forall r, In r syms2 -> length r = n * b) ->
  exists h, from_symbol_arrays syms1 cs1 (n * a) syms2 cs2 (n * b) fr "dist" = Ok h /\ hy_ratio h = s /\ hy_M1 h = syms1 /\
    hy_M2 h = map (map (fun z : C => Cscal (/ sqrt s) z)) syms2 /\ length (hy_samples h) = length syms1 /\
    forall i r1 r2, nth_error (hy_M1 h) i = Some r1 -> nth_error (hy_M2 h) i = Some r2 ->
      exists row, nth_error (hy_samples h) i = Some row /\ frames_of_two n a b row r1 r2.
Proof. exact arrays_frames. Qed.
Print Assumptions C44_from_arrays_partial.
(** Other arrays are not truncated: the assignment fails. *)
Theorem C44_truncation_refuted : forall a b syms1 cs1 cols1 syms2 cs2 cols2 s fr,
  0 < a -> 0 < b -> cal_fractions fr = Ok (Z.of_nat (a + b), Z.of_nat a, Z.of_nat b) ->
  calculate_power_ratio cs1 cs2 "dist" = Ok s -> length syms1 = length syms2 -> 0 < length syms1 ->
  (forall r, In r syms1 -> length r = cols1) -> (forall r, In r syms2 -> length r = cols2) ->
  cols1 <> 1 -> cols2 <> 1 -> (forall n, ~ (cols1 = n * a /\ cols2 = n * b)) ->
  from_symbol_arrays syms1 cs1 cols1 syms2 cs2 cols2 fr "dist" = Err ValueError.
Proof. exact arrays_bad. Qed.
Print Assumptions C44_truncation_refuted.
Theorem C44_single_format_refuted : forall syms1 cs1 cols1 syms2 cs2 cols2 s fr,
  calculate_power_ratio cs1 cs2 "dist" = Ok s -> length syms1 = length syms2 -> 0 < cols1 -> 0 < cols2 -> (fr == 0 \/ fr == 1)%Q ->
  from_symbol_arrays syms1 cs1 cols1 syms2 cs2 cols2 fr "dist" = Err ZeroDivisionError.
Proof. exact arrays_zero. Qed.
Print Assumptions C44_single_format_refuted.

Example C44_case : forall (x y z : C), frames_of_two 1 2 1 [x; y; z] [x; y] [z] /\ cal_fractions (1 # 3) = Ok (3, 2, 1)%Z.
Proof.
  intros x y z. split; [|reflexivity]. repeat (split; [reflexivity|]). intros q p Hq. assert (q = 0) as -> by lia.
  split; intros Hp; [|assert (p = 0) as -> by lia; reflexivity]. destruct p as [|[|p]]; [reflexivity|reflexivity|lia].
Qed.

(** C98: the power ratio makes the minimum distances of the two QAM alphabets equal *)
Theorem C98_equal_distance : forall k1 k2 mp1 mp2 d1 d2, 1 <= k1 -> 1 <= k2 -> qam_mapping k1 = Ok mp1 -> qam_mapping k2 = Ok mp2 ->
  minimum_distance (coded_symbols mp1) d1 -> minimum_distance (coded_symbols mp2) d2 ->
  exists s, calculate_power_ratio (coded_symbols mp1) (coded_symbols mp2) "dist" = Ok s /\ s = ((d2 / d1) ^ 2)%R /\ (0 < s)%R /\
    minimum_distance (map (Cscal (/ sqrt s)) (coded_symbols mp2)) d1.
Proof. exact ratio_equal_distance. Qed.
Print Assumptions C98_equal_distance.

Example C98_case : exists mp1 mp2 s, qam_mapping 2 = Ok mp1 /\ qam_mapping 4 = Ok mp2 /\
  calculate_power_ratio (coded_symbols mp1) (coded_symbols mp2) "dist" = Ok s /\ (0 < s)%R.
Proof.
  destruct (QamP.qam_mapping_ok 2 ltac:(lia)) as (mp1 & E1 & _). destruct (QamP.qam_mapping_ok 4 ltac:(lia)) as (mp2 & E2 & _). exists mp1, mp2.
  destruct (C98_equal_distance 2 4 mp1 mp2 _ _ ltac:(lia) ltac:(lia) E1 E2 (QamP.qam_mindist 2 ltac:(lia) mp1 E1) (QamP.qam_mindist 4 ltac:(lia) mp2 E2)) as (s & E & _ & P & _).
  exists s. auto.
Qed.
