(** Properties C116 and C117: the numba equaliser and its error functions. *)
From Coq Require Import List ZArith Bool Arith Lia Reals Lra.
From Verif Require Import Common.Py Common.Cplx Common.SumX Model.Constellation Model.Decision Model.Equaliser Model.NumbaEq
  Spec.Seq Spec.Equal Proofs.NumbaP Proofs.NumbaQ.
Import ListNotations.
Local Open Scope R_scope.

(** C116: false, see the refuted theorems.  With error functions that agree, training one polarisation gives the errors,
    the step size and the conjugated taps of the compiled equaliser; both fail together *)
Theorem C116_training_partial : forall E os ntaps p l m f symbols srow errfct adaptive trsyms w wx mu,
  shape E p l -> getn symbols m = Ok srow -> (forall x i, f x srow i = errfct x) -> (forall i, (i < trsyms)%nat -> (i * os + ntaps <= l)%nat) ->
  (0 < p)%nat -> shape w p ntaps -> nth_error wx m = Some (map (map Cconj) w) -> (m < p)%nat ->
  let go := run C0 Cadd Cmul Cconj Cscal f adapt_step E os ntaps trsyms symbols (start C0 E trsyms 1 mu wx) (map (pair m) (program adaptive 1 trsyms)) in
  match n_train_eq E trsyms os mu w errfct adaptive with
  | Ok (err, w', mu') => exists st, go = Ok st /\ s_wx st = upd m (map (map Cconj) w') wx /\ nth_error (s_err st) m = Some err /\ s_mu st = mu'
  | Err e => go = Err e
  end.
Proof.
  intros E os ntaps p l m f symbols srow errfct adaptive trsyms w wx mu H1 H2 H3 H4 H5 H6 H7 H8.
  exact (n_train_same E os ntaps p l m f symbols srow errfct adaptive H1 H2 H3 trsyms H4 w wx mu H5 H6 H7 H8).
Qed.
Print Assumptions C116_training_partial.
Theorem C116_moduli_partial : forall s rest x i, ErrorFctCMA (Re s) x = cma_error x (s :: rest) i /\ ErrorFctMCMA s x = mcma_error x (s :: rest) i.
Proof. intros s rest x i. split; [apply cma_same|apply mcma_same]. Qed.
Print Assumptions C116_moduli_partial.
Theorem C116_decisions_partial : forall symbols x i, (exists t, In t symbols /\ Cabs (x - t)%C ^ 2 < 1000) ->
  ErrorFctSBD symbols x = sbd_error x symbols i /\ ErrorFctMDDMA symbols x = mddma_error x symbols i /\ ErrorFctDD symbols x = ddlms_error x symbols i.
Proof. exact dd_same. Qed.
Print Assumptions C116_decisions_partial.
Theorem C116_partition_partial : forall s parts codes, n_partition_value s parts codes = partition_value s (map RtoC parts) (map RtoC codes) Re.
Proof. exact value_same. Qed.
Print Assumptions C116_partition_partial.
(** the two error functions with radius decisions use numba_names that do not exist *)
Theorem C116_names_refuted : forall partition codebook partitionc codebookc x, ErrorFctRDE partition codebook x = Err NameError /\ ErrorFctMRDE partitionc codebookc x = Err NameError.
Proof. exact numba_names. Qed.
Print Assumptions C116_names_refuted.
(** far from every symbol the compiled decision is 1 *)
Theorem C116_far_refuted : forall i, ErrorFctDD [C0] (100, 0) <> ddlms_error (100, 0) [C0] i.
Proof. exact dd_far. Qed.
Print Assumptions C116_far_refuted.
(** one symbol 2, one tap i: the output -2i has the error (1-4)(-2i) = 6i, the tap becomes i - 12i *)
Example C116_case : n_train_eq [[(2, 0)]] 1 1 1 [[Ci]] (ErrorFctCMA 1) true = Ok ([(0, 6)], [[(0, -11)]], 1).
Proof.
  assert (F : n_filter [[Ci]] [[(2, 0)]] = Ok (0, -2)) by (cbn; apply (f_equal Ok); cring).
  assert (A : Cabs (0, -2) ^ 2 = 4) by (rewrite <- Rsqr_pow2; unfold Cabs; rewrite Rsqr_sqrt; [unfold Cnorm2; cbn; ring|apply Cnorm2_nonneg]).
  unfold n_train_eq. cbn [n_loop length Nat.mul]. match goal with |- context [n_filter ?a ?b] => replace (n_filter a b) with (@Ok C (0, -2)) by (symmetry; exact F) end. unfold ErrorFctCMA. cbn [bind]. rewrite A.
  cbn [andb Nat.ltb Nat.leb n_update map combine fst snd bind]. apply (f_equal Ok). apply (f_equal2 pair); [|reflexivity]. apply (f_equal2 pair).
  - apply (f_equal2 cons); [|reflexivity]. cring.
  - apply (f_equal2 cons); [|reflexivity]. apply (f_equal2 cons); [|reflexivity]. cring.
Qed.

(** ** C117 *)
(** the cosine term vanishes on the lattice of spacing d *)
Theorem C117_cme_lattice : forall r d beta a b, d <> 0 -> let x := (IZR a * d, IZR b * d) in ErrorFctCME r d beta x = Ok (Cscal (r - Cabs x ^ 2) x).
Proof. exact cme_lattice. Qed.
Print Assumptions C117_cme_lattice.
Theorem C117_cme_odd : forall r d beta x e, ErrorFctCME r d beta x = Ok e -> ErrorFctCME r d beta (Copp x) = Ok (Copp e).
Proof. exact cme_odd. Qed.
Print Assumptions C117_cme_odd.
(** the square contour error vanishes exactly at the origin and on the square of half-width |r| *)
Theorem C117_sca_zero : forall r x, ErrorFctSCA r x = Ok C0 <-> x = C0 \/ Rmax (Rabs (Re x)) (Rabs (Im x)) = Rabs r.
Proof. exact sca_zero. Qed.
Print Assumptions C117_sca_zero.
Theorem C117_sca_quarter_turn : forall r x e, ErrorFctSCA r x = Ok e -> ErrorFctSCA r (Ci * x)%C = Ok (Ci * e)%C.
Proof. exact sca_rotate. Qed.
Print Assumptions C117_sca_quarter_turn.
Example C117_case : ErrorFctSCA 3 (3, -2) = Ok C0 /\ ErrorFctSCA 3 (2, -3) = Ok C0 /\ ErrorFctSCA 3 (2, -1) <> Ok C0 /\ ErrorFctCME 4 2 5 (2, 0) = Ok C0.
Proof.
  assert (A : forall a b : R, Rabs (Re (a, b)) = Rabs a /\ Rabs (Im (a, b)) = Rabs b) by (intros; split; reflexivity).
  assert (R3 : Rabs 3 = 3) by (apply Rabs_right; lra). assert (R2 : Rabs 2 = 2) by (apply Rabs_right; lra).
  assert (M3 : Rabs (-3) = 3) by (rewrite Rabs_left; lra). assert (M2 : Rabs (-2) = 2) by (rewrite Rabs_left; lra). assert (M1 : Rabs (-1) = 1) by (rewrite Rabs_left; lra).
  split; [|split; [|split]].
  - apply C117_sca_zero. right. cbn. rewrite R3, M2. apply Rmax_left. lra.
  - apply C117_sca_zero. right. cbn. rewrite R3, R2, M3. apply Rmax_right. lra.
  - intros H. apply C117_sca_zero in H as [H|H]; [apply (f_equal fst) in H; cbn in H; lra|]. cbn in H. rewrite R3, R2, M1, Rmax_left in H; lra.
  - pose proof (C117_cme_lattice 4 2 5 1 0 ltac:(lra)) as H. cbv zeta in H. replace (IZR 1 * 2, IZR 0 * 2) with ((2, 0) : C) in H by (apply C_eq; cbn; lra).
    rewrite H. apply (f_equal Ok). assert (E : Cabs (2, 0) ^ 2 = 4). { rewrite <- Rsqr_pow2. unfold Cabs. rewrite Rsqr_sqrt; [|apply Cnorm2_nonneg]. unfold Cnorm2. cbn. ring. }
    rewrite E. cring.
Qed.
