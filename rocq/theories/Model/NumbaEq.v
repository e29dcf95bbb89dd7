(** The numba equaliser, core/equalisation/numba_equalisation.py. *)
From Coq Require Import List ZArith Arith Bool Reals.
From Verif Require Import Common.Py Common.Cplx Model.Constellation Model.Decision Model.Windows Model.Equaliser.
Import ListNotations.
Local Open Scope R_scope.

(** lines 59-84 *)
Definition n_partition_value (signal : R) (partitions codebook : list R) : result R :=
  getn codebook (partition_index signal Re (map RtoC partitions)).
(** lines 24-50, partition_signal *)
Definition n_partition_signal (signal partitions codebook : list R) : result (list R) :=
  mapM (fun d => n_partition_value d partitions codebook) signal.
(** lines 52-57; the same text as the function of the other module *)
Definition n_adapt_step : R -> C -> C -> R := adapt_step.
(** np.conj(wx) * X and sum(...), lines 86-92, 122.  Arrays of different shapes do not broadcast (a length of 1 is left out) *)
Definition n_filter (w X : list (list C)) : result C :=
  if negb (length w =? length X)%nat then Err ValueError else
  let! terms := mapM (fun p => if (length (fst p) =? length (snd p))%nat
                               then Ok (map (fun q => (Cconj (fst q) * snd q)%C) (combine (fst p) (snd p))) else Err ValueError) (combine w X) in
  Ok (fold_left Cadd (concat terms) C0).
(** line 124: wx += mu * conj(err) * X *)
Definition n_update (mu : R) (e : C) (w X : list (list C)) : list (list C) :=
  map (fun p => map (fun q => (fst q + Cscal mu (Cconj e) * snd q)%C) (combine (fst p) (snd p))) (combine w X).
(** lines 119-127, the loop from symbol i on; [prev] is err[i-1] *)
Fixpoint n_loop (E : list (list C)) (os ntaps : nat) (errfct : C -> result C) (adaptive : bool) (n i : nat) (prev : C) (mu : R) (w : list (list C))
  : result (list C * list (list C) * R) :=
  match n with
  | O => Ok ([], w, mu)
  | S n' =>
      let X := window E (i * os) ntaps in
      let! x := n_filter w X in
      let! e := errfct x in
      let w' := n_update mu e w X in
      let mu' := if adaptive && (0 <? i)%nat then n_adapt_step mu e prev else mu in
      let! r := n_loop E os ntaps errfct adaptive n' (S i) e mu' w' in
      let '(err, w'', mu'') := r in Ok (e :: err, w'', mu'')
  end.
(** lines 94-128, train_eq; Ntaps = wx.shape[1] *)
Definition n_train_eq (E : list (list C)) (trsyms os : nat) (mu : R) (wx : list (list C)) (errfct : C -> result C) (adaptive : bool)
  : result (list C * list (list C) * R) :=
  n_loop E os (match wx with r :: _ => length r | [] => 0%nat end) errfct adaptive trsyms 0 C0 mu wx.

(** symbols[np.argmin(np.abs(Xest-symbols))] *)
Definition n_decide (x : C) (symbols : list C) : result C :=
  let! t := det_symbol_argmin x symbols in Ok (fst (fst t)).
(** lines 130-150 *)
Definition ErrorFctCMA (r : R) (x : C) : result C := Ok (Cscal (r - Cabs x ^ 2) x).
(** lines 152-173 *)
Definition ErrorFctMCMA (r : C) (x : C) : result C := Ok ((Re r - Re x ^ 2) * Re x, (Im r - Im x ^ 2) * Im x).
(** lines 175-200: the body uses the names part and code; the arguments are partition and codebook *)
Definition ErrorFctRDE (partition codebook : list R) (x : C) : result C := Err NameError.
(** lines 202-227: the body uses the name partion *)
Definition ErrorFctMRDE (partition codebook : list C) (x : C) : result C := Err NameError.
(** lines 229-252 *)
Definition ErrorFctSBD (symbols : list C) (x : C) : result C :=
  let! s := n_decide x symbols in Ok ((Re s - Re x) * Rabs (Re s), (Im s - Im x) * Rabs (Im s)).
(** lines 254-277 *)
Definition ErrorFctMDDMA (symbols : list C) (x : C) : result C :=
  let! s := n_decide x symbols in Ok ((Re s ^ 2 - Re x ^ 2) * Re x, (Im s ^ 2 - Im x ^ 2) * Im x).
(** lines 279-300 *)
Definition ErrorFctDD (symbols : list C) (x : C) : result C :=
  let! s := n_decide x symbols in Ok (s - x)%C.
(** lines 302-329; d = 0 divides by zero *)
Definition ErrorFctCME (r d beta : R) (x : C) : result C :=
  if Req_EM_T d 0 then Err ZeroDivisionError else
  let f := beta * PI / (2 * d) in
  Ok (Cadd (Cscal (r - Cabs x ^ 2) x) (f * sin (Re x * PI / d), f * sin (Im x * PI / d))).
(** lines 331-361 *)
Definition ErrorFctSCA (r : R) (x : C) : result C :=
  let re := Rabs (Re x) in let im := Rabs (Im x) in
  let a := if Rle_dec im re then 1 else 0 in
  let b := if Rle_dec im re then (if Req_EM_T re im then 1 else 0) else 1 in
  Ok (16 * Re x * (r ^ 2 - Re x ^ 2) * a, 16 * Im x * (r ^ 2 - Im x ^ 2) * b).
