(** Properties C132-C134: tap initialisation and the square contour constant. *)
From Coq Require Import List ZArith Arith Bool Reals Lia Lra.
From Verif Require Import Common.Py Common.Cplx Model.Equaliser Model.NumbaEq Model.EqInit Spec.EqInitS Proofs.EqInitP.
Import ListNotations.
Local Open Scope R_scope.

(** C132.  Full statement: orthogonalizetaps keeps the energy, undoes itself and returns taps orthogonal to
    the given ones, so that both together can be inverted at every frequency at which the given taps
    respond.  The inner product and the determinant lack the minus sign of one row. *)
Theorem C132_involution : forall wx, orthogonalizetaps (orthogonalizetaps wx) = wx.
Proof. exact ortho_involution. Qed.
Print Assumptions C132_involution.
Theorem C132_energy : forall wx, tap_energy (orthogonalizetaps wx) = tap_energy wx.
Proof. exact ortho_energy. Qed.
Print Assumptions C132_energy.
Theorem C132_single_partial : forall a, let z := repeat C0 (length a) in
  inner2 [a; z] (orthogonalizetaps [a; z]) = C0 /\ inner2 [z; a] (orthogonalizetaps [z; a]) = C0.
Proof. exact ortho_single. Qed.
Print Assumptions C132_single_partial.
Theorem C132_product : forall a b, length a = length b ->
  inner2 [a; b] (orthogonalizetaps [a; b]) = Cscal 2 (Csum (map (fun p => (fst p * snd p)%C) (combine a (rev b)))).
Proof. exact ortho_product. Qed.
Print Assumptions C132_product.
Theorem C132_determinant : forall a b w, length a = length b ->
  det_response [a; b] (orthogonalizetaps [a; b]) w =
  Cscal (Cnorm2 (response a w) - Cnorm2 (response b w)) (Cexpi (- (w * (INR (length a) - 1)))).
Proof. exact ortho_determinant. Qed.
Print Assumptions C132_determinant.
(** taps which are returned unchanged, and taps for which the pair is singular at all frequencies *)
Theorem C132_same_refuted : forall r z, In z r -> z <> C0 -> let wx := [r; map Cconj (rev r)] in
  orthogonalizetaps wx = wx /\ inner2 wx (orthogonalizetaps wx) <> C0.
Proof. exact ortho_not_orthogonal. Qed.
Print Assumptions C132_same_refuted.
Theorem C132_singular_refuted : forall r w, det_response [r; r] (orthogonalizetaps [r; r]) w = C0.
Proof. exact ortho_equal_rows. Qed.
Print Assumptions C132_singular_refuted.

Example C132_case : let a := [(1, 0); (0, 2)] : list C in let b := [(3, 0); (0, 0)] : list C in
  orthogonalizetaps [a; b] = [[(0, - 0); (3, - 0)]; [(0, - 2); (1, - 0)]] /\
  inner2 [a; b] (orthogonalizetaps [a; b]) = (0, 12).
Proof.
  intros a b. split; [reflexivity|]. rewrite C132_product by reflexivity. unfold a, b.
  apply C_eq; unfold Cscal, Csum, Cadd, Cmul, C0; cbn; ring.
Qed.

(** C133.  The constant of the square contour algorithm is real: the ratio of the fourth to the second
    moment of the half-widths; for 4-QAM the error vanishes on the alphabet with its square root. *)
Theorem C133_ratio : forall k, (1 <= k)%nat -> exists r, cal_Rsca k = Some (RtoC r) /\
  r * Rsum (map (fun s => square_norm s ^ 2) (qam_alphabet k)) = Rsum (map (fun s => square_norm s ^ 4) (qam_alphabet k)).
Proof. exact rsca_value. Qed.
Print Assumptions C133_ratio.
Theorem C133_four : exists r, cal_Rsca 2 = Some (RtoC r) /\ forall s, In s (qam_alphabet 2) -> ErrorFctSCA (sqrt r) s = Ok C0.
Proof. exact rsca_four. Qed.
Print Assumptions C133_four.

Example C133_case : square_norm (1, -3) = 3 /\ cal_Rdash (1, -3) = (36, -12).
Proof.
  assert (A : Rabs (-3) = 3) by (rewrite Rabs_left; lra). split.
  - unfold square_norm, Re, Im. cbn [fst snd]. rewrite A, Rabs_R1. apply Rmax_right. lra.
  - unfold cal_Rdash, Re, Im. cbn [fst snd]. replace (1 + -3) with (-2) by ring. replace (1 - -3) with 4 by ring.
    unfold np_sign. destruct (Rlt_dec 0 (-2)), (Rlt_dec (-2) 0), (Rlt_dec 0 4); try lra.
    rewrite (Rabs_left (-2)), (Rabs_right 4) by lra. apply C_eq; unfold Cscal, Cmul, Cconj; cbn [fst snd]; ring.
Qed.

(** C134.  Full statement: _lms_init returns the prepared signal, taps and lengths.  It always raises. *)
Theorem C134_refuted : forall E os wxy n t, exists e, lms_init E os wxy n t = Err e /\ (wxy = None -> e = NameError) /\
  (forall w0 w, wxy = Some (w0 :: w) -> t <> None -> e = NameError).
Proof. exact lms_init_never. Qed.
Print Assumptions C134_refuted.

Example C134_case : lms_init [[C1; C0]] 2 None 11 None = Err NameError /\ lms_init [[C1; C0]] 0 (Some [[[C1]]]) 1 None = Err ZeroDivisionError.
Proof. split; reflexivity. Qed.
