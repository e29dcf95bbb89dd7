(** Properties C121-C122: arrays and symbols from MATLAB files. *)
From Coq Require Import String List ZArith Bool Arith Reals Lia Lra.
From Verif Require Import Common.Py Common.Cplx Model.Constellation Model.SignalFrom Model.MatIo
  Spec.MatS Spec.ImpairSpec Spec.Metrics Proofs.MatP.
Import ListNotations.
Local Open Scope nat_scope.

(** C121.  Full statement: for every list of keys, row i (or, for a single entry, the array) is
    re + j*im of the arrays named by the two names of entry i, or the array itself for one name,
    transposed when requested.  False for entries of different formats and for the transposition of
    several arrays. *)
Theorem C121_one_array_partial : forall file k a tr pm r c, holds file k a -> has_shape a r c -> 0 < r ->
  exists o, ndarray_from_matlab file [[k]] tr false pm = Ok o /\
    if tr then has_shape o c r /\ forall i j x, entry a i j = Some x -> entry o j i = Some x else o = a.
Proof. exact mat_single. Qed.
Print Assumptions C121_one_array_partial.
Theorem C121_one_pair_partial : forall file re im a b tr pm r c,
  holds file re a -> holds file im b -> has_shape a r c -> has_shape b r c -> 0 < r ->
  exists o, ndarray_from_matlab file [[re; im]] tr false pm = Ok o /\
    (if tr then has_shape o c r else has_shape o r c) /\
    forall i j x y, entry a i j = Some x -> entry b i j = Some y ->
      exists z, (if tr then entry o j i else entry o i j) = Some z /\ quadratures x y z.
Proof. exact mat_pair. Qed.
Print Assumptions C121_one_pair_partial.
Theorem C121_modes_partial : forall file n names arrays tr pm, 2 <= length names ->
  Forall2 (fun k a => holds file k a /\ length (concat a) = n) names arrays ->
  ndarray_from_matlab file (map (fun k => [k]) names) tr false pm = Ok (map (@concat C) arrays).
Proof. exact mat_modes. Qed.
Print Assumptions C121_modes_partial.
Theorem C121_mode_pairs_partial : forall file n names arrays tr pm, 2 <= length names ->
  Forall2 (fun k a => holds file (fst k) (fst a) /\ holds file (snd k) (snd a) /\
     length (concat (fst a)) = n /\ length (concat (snd a)) = n) names arrays ->
  exists rows, ndarray_from_matlab file (map (fun k => [fst k; snd k]) names) tr false pm = Ok rows /\
    Forall2 (fun a row => length row = n /\ forall i x y, nth_error (concat (fst a)) i = Some x ->
       nth_error (concat (snd a)) i = Some y -> exists z, nth_error row i = Some z /\ quadratures x y z) arrays rows.
Proof. exact mat_mode_pairs. Qed.
Print Assumptions C121_mode_pairs_partial.
(** dim2cmplx: output mode m joins the two rows named by portmap[m] *)
Theorem C121_ports : forall file keys tr pm a r c, ndarray_from_matlab file keys tr false pm = Ok a -> has_shape a r c ->
  (forall p, In p pm -> fst p < r /\ snd p < r) ->
  exists o, ndarray_from_matlab file keys tr true pm = Ok o /\ has_shape o (length pm) c /\
    forall m p q j x y, nth_error pm m = Some (p, q) -> entry a p j = Some x -> entry a q j = Some y ->
      exists z, entry o m j = Some z /\ quadratures x y z.
Proof. exact mat_ports. Qed.
Print Assumptions C121_ports.
Theorem C121_missing : forall file k tr dc pm, ~ In k (map fst file) -> ndarray_from_matlab file [[k]] tr dc pm = Err KeyError.
Proof. exact mat_missing. Qed.
Print Assumptions C121_missing.
Theorem C121_unequal_lengths : forall file k1 k2 a1 a2 tr dc pm, holds file k1 a1 -> holds file k2 a2 ->
  length (concat a1) <> length (concat a2) -> ndarray_from_matlab file [[k1]; [k2]] tr dc pm = Err ValueError.
Proof. exact mat_unequal. Qed.
Print Assumptions C121_unequal_lengths.
(** the format of the first entry is used for all: the imaginary part of a later pair is dropped,
    a later single name raises IndexError *)
Theorem C121_mixed_refuted : let one := (1, 0)%R : C in let file := [("a", [[one]]); ("b", [[one]]); ("c", [[one]])]%string in
  ndarray_from_matlab file [["a"]; ["b"; "c"]]%string false false [] = Ok [[one]; [one]] /\ ~ quadratures one one one /\
  ndarray_from_matlab file [["b"; "c"]; ["a"]]%string false false [] = Err IndexError.
Proof. exact mat_mixed. Qed.
Print Assumptions C121_mixed_refuted.
(** transpose is ignored for several arrays *)
Theorem C121_transpose_refuted : let m := [[(1, 0); (2, 0)]; [(3, 0); (4, 0)]]%R : list (list C) in let file := [("a", m); ("b", m)]%string in
  ndarray_from_matlab file [["a"]; ["b"]]%string true false [] = Ok [concat m; concat m] /\ concat m <> concat (transpose m).
Proof. exact mat_transpose_lost. Qed.
Print Assumptions C121_transpose_refuted.

Example C121_case : forall x1 y1 x2 y2 : C,
  ndarray_from_matlab [("xi", [[x1; x2]]); ("xq", [[y1]; [y2]])]%string [["xi"]; ["xq"]]%string false false [] = Ok [[x1; x2]; [y1; y2]] /\
  ndarray_from_matlab [("xi", [[x1; x2]]); ("xq", [[y1; y2]])]%string [["xi"; "xq"]]%string true false []
    = Ok [[(x1 + Ci * y1)%C]; [(x2 + Ci * y2)%C]] /\
  ndarray_from_matlab [("s", [[x1; x2]; [y1; y2]])]%string [["s"]]%string false true [(1, 0)]
    = Ok [[(y1 + Ci * x1)%C; (y2 + Ci * x2)%C]].
Proof. intros. repeat split; reflexivity. Qed.

(** C122.  Full statement: with fake_polmux the signal has two modes, the loaded symbols and a copy
    delayed by fake_pm_delay (normalised, and decided to the alphabet).  As written the first mode is
    the delayed one and only a row vector gives two modes. *)
Theorem C122_two_modes_partial : forall file k nbits x d, 1 <= nbits -> holds file k [x] -> ~ constant x ->
  exists s y a, load_symbols_from_matlab_file file nbits [[k]] true d true false false [] = Ok (Some s) /\
    shifted_scaled (sample_mean x) a x y /\ sample_mean y = C0 /\ sample_power y = 1%R /\
    exists z, Forall2 (nearest (coded_symbols (sig_map s))) y z /\ exists z', delayed d z z' /\ sig_samples s = [z'; z].
Proof. exact load_fake. Qed.
Print Assumptions C122_two_modes_partial.
Theorem C122_plain : forall file k nbits E, 1 <= nbits -> holds file k E -> E <> [] -> Forall (fun x => ~ constant x) E ->
  exists s F, load_symbols_from_matlab_file file nbits [[k]] false 0 true false false [] = Ok (Some s) /\
    Forall2 (fun x y => (exists a, shifted_scaled (sample_mean x) a x y) /\ sample_mean y = C0 /\ sample_power y = 1%R) E F /\
    Forall2 (Forall2 (nearest (coded_symbols (sig_map s)))) F (sig_samples s).
Proof. exact load_plain. Qed.
Print Assumptions C122_plain.
Theorem C122_first_mode_delayed_refuted : let x := [(3, 0); (-3, 0); (3, 0)]%R : list C in
  exists s, load_symbols_from_matlab_file [("s", [x])]%string 1 [["s"]]%string true 1 false false false [] = Ok (Some s) /\
    sig_samples s = [[(3, 0); (3, 0); (-3, 0)]; x]%R /\ ~ (exists y, delayed 1 x y /\ sig_samples s = [x; y]).
Proof. exact load_fake_swapped. Qed.
Print Assumptions C122_first_mode_delayed_refuted.
Theorem C122_column_refuted : forall file k nbits (x : list C) d, 1 <= nbits -> x <> [] -> holds file k (map (fun z => [z]) x) ->
  exists s, load_symbols_from_matlab_file file nbits [[k]] true d false false false [] = Ok (Some s) /\
    length (sig_samples s) = 2 * length x /\ Forall (fun row => length row = 1) (sig_samples s).
Proof. exact load_column. Qed.
Print Assumptions C122_column_refuted.

Example C122_case : let x := [(3, 0); (-3, 0); (3, 0)]%R : list C in ~ constant x /\ holds [("s", [x])]%string "s" [x].
Proof.
  intros x. split.
  - intros K. specialize (K (3, 0)%R (-3, 0)%R). assert (E : (3, 0)%R = (-3, 0)%R) by (apply K; unfold x; cbn; auto).
    assert (W : fst (3, 0)%R = fst (-3, 0)%R) by congruence. cbn in W. lra.
  - split; [|now left]. cbn. constructor; [intros []|constructor].
Qed.
