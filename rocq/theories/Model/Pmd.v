(** core/impairments.py 29-61 and 83-92: H_PMD and _applyPMD_einsum.  A (2, 2, n) array is a 2x2
    matrix of rows over the frequencies.  The field has two modes with one sample per frequency
    (np.einsum would repeat a single mode or a single frequency: not modelled, [ValueError]). *)
From Coq Require Import List Arith Bool Reals.
From Verif Require Import Common.Py Common.Cplx Common.Dft Model.Helpers Model.Impair.
Import ListNotations.
Local Open Scope R_scope.

Record mat2 (A : Type) := Mat2 { m00 : A; m01 : A; m10 : A; m11 : A }.
Arguments Mat2 {A}. Arguments m00 {A}. Arguments m01 {A}. Arguments m10 {A}. Arguments m11 {A}.

Definition rot2 (theta : R) : mat2 R := Mat2 (cos theta) (- sin theta) (sin theta) (cos theta).
(** a*x + b*y, elementwise *)
Definition lin2 (a b : R) (x y : list C) : list C := zipc (fun u v => (Cscal a u + Cscal b v)%C) x y.

(** lines 53-61; the einsum 'ij,jkl->ikl' is the matrix product for every frequency *)
Definition H_PMD (theta t_dgd : R) (omega : list R) : mat2 (list C) * mat2 R :=
  let h1 := rot2 theta in
  let z := repeat C0 (length omega) in
  let h2 := Mat2 (map (fun w => Cexpi (- (w * t_dgd / 2))) omega) z z (map (fun w => Cexpi (w * t_dgd / 2)) omega) in
  let h3 := rot2 (- theta) in
  (Mat2 (lin2 (m00 h1) (m01 h1) (m00 h2) (m10 h2)) (lin2 (m00 h1) (m01 h1) (m01 h2) (m11 h2))
        (lin2 (m10 h1) (m11 h1) (m00 h2) (m10 h2)) (lin2 (m10 h1) (m11 h1) (m01 h2) (m11 h2)), h3).

(** lines 83-92; 'ijk,ik -> ik' sums H over j and multiplies with the same mode *)
Definition applyPMD_einsum (E : list (list C)) (H : mat2 (list C)) (h3 : mat2 R) : result (list (list C)) :=
  match E with
  | [x; y] =>
      let n := length (m00 H) in
      if (length x =? n)%nat && (length y =? n)%nat then
        let a := unspectrum (cmul_list (zipc Cadd (m00 H) (m01 H)) (spectrum x)) in
        let b := unspectrum (cmul_list (zipc Cadd (m10 H) (m11 H)) (spectrum y)) in
        Ok [lin2 (m00 h3) (m01 h3) a b; lin2 (m10 h3) (m11 h3) a b]
      else Err ValueError
  | _ => Err ValueError
  end.
