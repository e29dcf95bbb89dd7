(** Pattern look-up tables: core/digital_pre_compensation.py 96-186, core/pythran_dsp.py 199-240. *)
From Coq Require Import List ZArith Arith Bool Reals.
From Verif Require Import Common.Py Common.Cplx Model.Decision Model.Windows.
Import ListNotations.
Local Open Scope R_scope.

(** np.unique of real numbers *)
Fixpoint insert_unique (x : R) (l : list R) : list R :=
  match l with
  | [] => [x]
  | y :: l' => if Rlt_dec x y then x :: l else if Rlt_dec y x then y :: insert_unique x l' else l
  end.
Definition unique (l : list R) : list R := fold_right insert_unique [] l.

(** idx[tuple(digits)] with idx = arange(M^N).reshape(N*[M]) *)
Definition ravel (M : nat) (digits : list nat) : nat := fold_left (fun acc d => (acc * M + d)%nat) digits 0%nat.

(** lines 121-126.  A window element outside the buffer has an arbitrary content; the model makes
    this an error. *)
Definition pattern_numbers (M N : nat) (sig_idx : list nat) : result (list nat) :=
  let! win := rolling_window sig_idx N true in
  mapM (fun row =>
    let! ds := mapM (fun o => match o with Some d => if (d <? M)%nat then Ok d else Err IndexError | None => Err IndexError end) row in
    Ok (ravel M ds)) win.
(** lines 117-126 without ret_ptrns; real signal and reference levels *)
Definition nearest_levels (sig ref : list R) : result (list nat) :=
  mapM (fun x => argmin (map (fun s => Rabs (x - s)) ref)) sig.
Definition find_sym_patterns (sig ref : list R) (N : nat) : result (list nat) :=
  let! ix := nearest_levels sig ref in pattern_numbers (length ref) N ix.

(** pythran_dsp.py 223-240 for one component; an index beyond the table is undefined behaviour,
    here an error *)
Fixpoint lut_acc (ix : list nat) (ev : list R) (acc : list R) (cnt : list nat) {struct ev} : result (list R * list nat) :=
  match ev with
  | [] => Ok (acc, cnt)
  | e :: ev' =>
      match ix with
      | [] => Err IndexError
      | i :: ix' =>
          let! a := getn acc i in
          let! n := getn cnt i in
          lut_acc ix' ev' (upd i (a + e) acc) (upd i (S n) cnt)
      end
  end.
Definition lut_avg1 (ev : list R) (ix : list nat) (N : nat) : result (list R) :=
  let! ac := lut_acc ix ev (repeat 0 N) (repeat 0%nat N) in
  Ok (map (fun p => fst p / INR (if (snd p =? 0)%nat then 1%nat else snd p)) (combine (fst ac) (snd ac))).
Definition cal_lut_avg (err : list C) (idx_I idx_Q : list nat) (N : nat) : result (list C) :=
  let! i := lut_avg1 (map fst err) idx_I N in
  let! q := lut_avg1 (map snd err) idx_Q N in
  Ok (combine i q).

(** cal_lut with real patterns, lines 160-176 *)
Definition cal_lut (tx rx : list C) (ref : list C) (mem_len : nat) (idx_data : list bool) : result (list C * list nat * list nat) :=
  if negb (length tx =? length rx)%nat then Err AssertionError else
  let err := map (fun p => (fst p - snd p)%C) (combine tx rx) in
  let idx := map (fun k => (Z.of_nat k - Z.of_nat (mem_len / 2))%Z) (nonzero idx_data) in
  let ref_I := unique (map fst ref) in
  let ref_Q := unique (map snd ref) in
  let N := (length ref_I ^ mem_len)%nat in
  let! pI := find_sym_patterns (map fst tx) ref_I mem_len in
  let! pQ := find_sym_patterns (map snd tx) ref_Q mem_len in
  let! idx_I := mapM (getz pI) idx in
  let! idx_Q := mapM (getz pQ) idx in
  let! e := mask_get idx_data err in
  let! ea := cal_lut_avg e idx_I idx_Q N in
  Ok (ea, idx_I, idx_Q).
