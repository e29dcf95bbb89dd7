(** Time-domain hybrid QAM: signals.py 1229-1395, TDHQAMSymbols.
    The two constituent signals are given by their samples; M1class(M1, N1, ...) and
    M2class(M2, N2, ...) are functions of the number of symbols.  Floats are rational (fr) or
    real numbers; dtypes and the assertion on them are not modelled. *)
From Coq Require Import String List ZArith QArith Reals Bool Arith.
From Verif Require Import Common.Py Common.Cplx Model.Fractions.
Import ListNotations.
Local Open Scope R_scope.

(** signals.py 1264-1270: (f_M, f_M1, f_M2) *)
Definition cal_fractions (fr : Q) : result (Z * Z * Z) :=
  let! ratn := fraction_of fr in
  let f_M2 := Qnum ratn in
  let f_M := Zpos (Qden ratn) in
  Ok (f_M, (f_M - f_M2)%Z, f_M2).

(** signals.py 1272-1277: the masks idx1 and idx2 (a negative N gives empty arrays) *)
Definition cal_symbol_idx (n f_M f_M1 : Z) : list bool * list bool :=
  let idx := map Z.of_nat (seq 0 (Z.to_nat n)) in
  (map (fun i => (i mod f_M <? f_M1)%Z) idx, map (fun i => (f_M1 <=? i mod f_M)%Z) idx).

(** out[:, mask] = v on one row: as many values as selected positions, or one value for all *)
Fixpoint mask_fill {A} (mask : list bool) (out v : list A) : list A :=
  match mask, out with
  | true :: mask', o :: out' => match v with x :: v' => x :: mask_fill mask' out' v' | [] => o :: mask_fill mask' out' [] end
  | false :: mask', o :: out' => o :: mask_fill mask' out' v
  | _, _ => out
  end.
Definition mask_put {A} (mask : list bool) (out v : list A) : result (list A) :=
  let n := length (filter (fun b => b) mask) in
  if (length v =? n)%nat then Ok (mask_fill mask out v)
  else match v with [x] => Ok (mask_fill mask out (repeat x n)) | _ => Err ValueError end.
Fixpoint mask_put_rows {A} (mask : list bool) (out v : list (list A)) : result (list (list A)) :=
  match out, v with
  | [], [] => Ok []
  | o :: out', r :: v' => let! o' := mask_put mask o r in let! out'' := mask_put_rows mask out' v' in Ok (o' :: out'')
  | _, _ => Err ValueError
  end.

(** np.unique of complex numbers: sorted by real, then imaginary part *)
Definition Clex (a b : C) : bool :=
  if Rlt_dec (fst a) (fst b) then true
  else if Req_EM_T (fst a) (fst b) then (if Rlt_dec (snd a) (snd b) then true else false) else false.
Fixpoint insert (x : C) (l : list C) : list C :=
  match l with [] => [x] | y :: l' => if Clex x y then x :: y :: l' else y :: insert x l' end.
Definition np_unique (l : list C) : list C := fold_right insert [] (nodup Ceq_dec l).
(** np.min(abs(np.diff(x))) *)
Fixpoint abs_diff (l : list C) : list R :=
  match l with
  | x :: l' => match l' with y :: _ => Cabs (y - x)%C :: abs_diff l' | [] => [] end
  | [] => []
  end.
Definition np_min (l : list R) : result R :=
  match l with [] => Err ValueError | x :: l' => Ok (fold_left Rmin l' x) end.

(** signals.py 1368-1393, calculate_power_ratio *)
Definition calculate_power_ratio (symbols1 symbols2 : list C) (method : string) : result R :=
  if String.eqb method "dist"%string then
    let! d1 := np_min (abs_diff (np_unique symbols1)) in
    let! d2 := np_min (abs_diff (np_unique symbols2)) in
    Ok ((d2 / d1) ^ 2)
  else Err NotImplementedError.

(** samples, the samples of symbols_M1 and symbols_M2, powratio *)
Record hybrid := Hybrid { hy_samples : list (list C); hy_M1 : list (list C); hy_M2 : list (list C); hy_ratio : R }.

Definition scale_down (scale : R) (rows : list (list C)) : list (list C) :=
  map (map (fun z : C => Cscal (/ sqrt scale) z)) rows.
(** np.zeros((nmodes, n)) filled at idx1 and idx2; a negative dimension is a ValueError *)
Definition assemble (n f_M f_M1 : Z) (syms1 syms2 : list (list C)) : result (list (list C)) :=
  if (n <? 0)%Z then Err ValueError else
  let '(idx1, idx2) := cal_symbol_idx n f_M f_M1 in
  let! out := mask_put_rows idx1 (map (fun _ => repeat C0 (Z.to_nat n)) syms1) syms1 in
  mask_put_rows idx2 out syms2.

(** signals.py 1231-1262, __new__; [gen1 n] and [gen2 n] are the samples of M1class(M1, n, ...)
    and M2class(M2, n, ...), [cs1], [cs2] their coded symbols.  A negative number of symbols is a
    ValueError of the random number generator. *)
Definition tdhqam (gen1 gen2 : nat -> list (list C)) (cs1 cs2 : list C) (n : nat) (fr : Q) (method : string) : result hybrid :=
  let! (f_M, f_M1, f_M2) := cal_fractions fr in
  let frms := (Z.of_nat n / f_M)%Z in
  let n' := if (0 <? Z.of_nat n mod f_M)%Z then (f_M * frms)%Z else Z.of_nat n in
  let n1 := (frms * f_M1)%Z in
  let n2 := (frms * f_M2)%Z in
  if (n1 <? 0)%Z || (n2 <? 0)%Z then Err ValueError else
  let syms1 := gen1 (Z.to_nat n1) in
  let! scale := calculate_power_ratio cs1 cs2 method in
  let syms2 := scale_down scale (gen2 (Z.to_nat n2)) in
  let! out := assemble n' f_M f_M1 syms1 syms2 in
  Ok {| hy_samples := out; hy_M1 := syms1; hy_M2 := syms2; hy_ratio := scale |}.

(** signals.py 1319-1366, from_symbol_arrays; syms_M2 is divided in place (line 1348), so [hy_M2]
    is also what the caller's second array holds afterwards.  [cols1], [cols2] are the numbers of columns. *)
Definition from_symbol_arrays (syms1 : list (list C)) (cs1 : list C) (cols1 : nat)
    (syms2 : list (list C)) (cs2 : list C) (cols2 : nat) (fr : Q) (method : string) : result hybrid :=
  if negb (length syms1 =? length syms2)%nat then Err AssertionError else
  let! (f_M, f_M1, f_M2) := cal_fractions fr in
  let! scale := calculate_power_ratio cs1 cs2 method in
  let syms2 := scale_down scale syms2 in
  let n1 := Z.of_nat cols1 in
  let n2 := Z.of_nat cols2 in
  let nframes := ((n1 + n2) / f_M)%Z in
  let! nframes :=
    if (n1 <? nframes * f_M1)%Z || (n2 <? nframes * f_M2)%Z then
      if (f_M1 =? 0)%Z || (f_M2 =? 0)%Z then Err ZeroDivisionError
      else Ok (Z.min (n1 / f_M1) (n2 / f_M2))
    else Ok nframes in
  let n := (nframes * f_M)%Z in
  let! out := assemble n f_M f_M1 syms1 syms2 in
  Ok {| hy_samples := out; hy_M1 := syms1; hy_M2 := syms2; hy_ratio := scale |}.
