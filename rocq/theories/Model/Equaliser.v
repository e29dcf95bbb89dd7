(** Adaptive equalisation: core/equalisation/pythran_equalisation.py (kernels),
    core/equalisation/equalisation.py, equalisation.py (user level). *)
From Coq Require Import String Ascii List ZArith Arith Bool Reals.
From Verif Require Import Common.Py Common.Cplx Model.Constellation Model.Decision Model.Windows.
Import ListNotations.
Open Scope list_scope.

(** ** Kernels.  The complex and the real-valued kernels have the same text except for the error
    function, the conjugation in the tap update and the step size rule, so they are instances of
    one definition over a number type [K].  An index outside an array, which the compiled code
    does not check, is [Err IndexError]. *)
Section Kernel.
  Context {K : Type} (kz : K) (kadd kmul : K -> K -> K) (kconj : K -> K) (kscal : R -> K -> K).

  Definition get2 (X : list (list K)) (k i : nat) : result K :=
    let! row := getn X k in getn row i.
  (** E[:, s:s+n] *)
  Definition window (E : list (list K)) (s n : nat) : list (list K) :=
    map (fun row => firstn n (skipn s row)) E.

  (** pythran_equalisation.py 24-31, apply_filter *)
  Definition apply_filter (X w : list (list K)) (ntaps : nat) : result K :=
    let! terms := mapM (fun k => mapM (fun i => let! x := get2 X k i in
                                                let! v := get2 w k i in Ok (kmul x v)) (seq 0 ntaps))
                       (seq 0 (length X)) in
    Ok (fold_left kadd (concat terms) kz).

  (** pythran_equalisation.py 37-76, apply_filter_to_signal; [l] is E.shape[1], [ntaps] is
      wx.shape[-1].  A negative number of columns is a ValueError of np.zeros. *)
  Definition apply_filter_to_signal (E : list (list K)) (l os : nat) (wx : list (list (list K)))
             (ntaps : nat) (modes : list nat) : result (list (list K)) :=
    let n := ((Z.of_nat l - Z.of_nat ntaps + 1) / Z.of_nat os)%Z in
    if (n <? 0)%Z then Err ValueError else
    mapM (fun m => mapM (fun i => let! w := getn wx m in
                                  apply_filter (window E (i * os) ntaps) w ntaps)
                        (seq 0 (Z.to_nat n))) modes.

  (** ** Training, pythran_equalisation.py 96-108 and 160-173.
      The loop over the modes is an OpenMP parallel loop: every mode is a thread that executes
      [program].  One loop body consists of the update of the taps ([Comp]: it reads the step size
      once) and, if the step size is adapted, of reading it again ([Load]) and writing it
      ([Store]); taps and errors of a mode are only touched by its own thread, the step size is
      shared.  A schedule is a list of (mode, action). *)
  Inductive action := Comp (it i : nat) | Load (it i : nat) | Store (it i : nat).
  Definition program (adaptive : bool) (niter trsyms : nat) : list action :=
    flat_map (fun it => flat_map (fun i =>
        Comp it i :: (if adaptive && (0 <? i) then [Load it i; Store it i] else [])) (seq 0 trsyms))
      (seq 0 niter).

  Record state := State {
    s_wx : list (list (list K)); s_err : list (list K); s_mu : R; s_reg : nat -> R }.

  Variable errorfct : K -> list K -> nat -> result K.
  Variable adapt : R -> K -> K -> R.
  Variables (E : list (list K)) (os ntaps trsyms : nat) (symbols : list (list K)).

  (** wx[mode] += mu * err * conj(X) *)
  Definition tap_update (mu : R) (e : K) (w X : list (list K)) : result (list (list K)) :=
    mapM (fun p => if length (fst p) =? length (snd p)
                   then Ok (map (fun q => kadd (fst q) (kmul (kscal mu e) (kconj (snd q))))
                                (combine (fst p) (snd p)))
                   else Err ValueError) (combine w X).

  Definition exec (st : state) (m : nat) (a : action) : result state :=
    match a with
    | Comp it i =>
        let X := window E (i * os) ntaps in
        let! w := getn (s_wx st) m in
        let! x := apply_filter X w ntaps in
        let! srow := getn symbols m in
        let! e := errorfct x srow i in
        let! erow := getn (s_err st) m in
        let! _ := getn erow (it * trsyms + i) in
        let! w' := tap_update (s_mu st) e w X in
        Ok (State (upd m w' (s_wx st)) (upd m (upd (it * trsyms + i) e erow) (s_err st))
                  (s_mu st) (s_reg st))
    | Load it i =>
        Ok (State (s_wx st) (s_err st) (s_mu st)
                  (fun t => if t =? m then s_mu st else s_reg st t))
    | Store it i =>
        let! erow := getn (s_err st) m in
        let! e := getn erow (it * trsyms + i) in
        let! e0 := getn erow (it * trsyms + i - 1) in
        Ok (State (s_wx st) (s_err st) (adapt (s_reg st m) e e0) (s_reg st))
    end.
  Fixpoint run (st : state) (sched : list (nat * action)) : result state :=
    match sched with
    | [] => Ok st
    | (m, a) :: rest => let! st' := exec st m a in run st' rest
    end.
  (** err = np.zeros((nmodes, TrSyms*Niter)) *)
  Definition start (niter : nat) (mu : R) (wx : list (list (list K))) : state :=
    State wx (repeat (repeat kz (trsyms * niter)) (length E)) mu (fun _ => mu).
  (** the loop without threads: one mode after the other *)
  Definition one_by_one (adaptive : bool) (niter : nat) (modes : list nat) : list (nat * action) :=
    flat_map (fun m => map (pair m) (program adaptive niter trsyms)) modes.
End Kernel.
Arguments s_wx {K}. Arguments s_err {K}. Arguments s_mu {K}. Arguments s_reg {K}.
Arguments State {K}.

Local Open Scope R_scope.

(** ** Step size, pythran_equalisation.py 12-22.  The callers pass the present error as [err_p]
    and the previous one as [err]. *)
Definition adapt_step (mu : R) (err_p err : C) : R :=
  if Rlt_dec 0 (Re err * Re err_p)
  then if Rlt_dec 0 (Im err * Im err_p) then mu
       else mu / (1 + mu * (Re err * Re err + Im err * Im err))
  else mu / (1 + mu * (Re err * Re err + Im err * Im err)).
Definition adapt_step_real (mu : R) (err_p err : R) : R :=
  if Rlt_dec 0 (err * err_p) then mu else mu / (1 + mu * (err * err)).

(** ** Error functions, pythran_equalisation.py 4-9, 110-125, 178-231 *)
Definition sign (x : R) : R := if Rlt_dec 0 x then 1 else if Rlt_dec x 0 then -1 else 0.
Fixpoint partition_index (signal : R) (fct : C -> R) (parts : list C) : nat :=
  match parts with
  | [] => 0
  | p :: l => if Rlt_dec (fct p) signal then S (partition_index signal fct l) else 0
  end.
Definition partition_value (signal : R) (parts codebook : list C) (fct : C -> R) : result R :=
  let! c := getn codebook (partition_index signal fct parts) in Ok (fct c).
(** np.array_split(l, 2): the first part gets the extra element *)
Definition array_split2 {A} (l : list A) : list A * list A :=
  let h := ((length l + 1) / 2)%nat in (firstn h l, skipn h l).

Definition cma_error (x : C) (s1 : list C) (i : nat) : result C :=
  let! s := getn s1 0 in Ok (Cscal (Re s - Cabs x ^ 2) x).
Definition cma2_error (x : C) (s1 : list C) (i : nat) : result C :=
  let! s := getn s1 0 in Ok ((s - x * x) * x)%C.
(** np.sign of the difference: s1[0] has no imaginary part *)
Definition sgncma_error (x : C) (s1 : list C) (i : nat) : result C :=
  let! s := getn s1 0 in Ok (Cscal (sign (Re s - Cabs x ^ 2)) (sign (Re x), sign (Im x))).
Definition mcma_error (x : C) (s1 : list C) (i : nat) : result C :=
  let! s := getn s1 0 in Ok ((Re s - Re x ^ 2) * Re x, (Im s - Im x ^ 2) * Im x).
Definition rde_error (x : C) (symbs : list C) (i : nat) : result C :=
  let '(codebook, partition) := array_split2 symbs in
  let sq := Cabs x ^ 2 in
  let! r := partition_value sq partition codebook Re in Ok (Cscal (r - sq) x).
Definition mrde_error (x : C) (symbs : list C) (i : nat) : result C :=
  let '(codebook, partition) := array_split2 symbs in
  let! r := partition_value (Re x ^ 2) partition codebook Re in
  let! q := partition_value (Im x ^ 2) partition codebook Im in
  Ok ((r - Re x ^ 2) * Re x, (q - Im x ^ 2) * Im x).
Definition sbd_error (x : C) (symbs : list C) (i : nat) : result C :=
  let s := fst (det_symbol x symbs) in
  Ok ((Re s - Re x) * Rabs (Re s), (Im s - Im x) * Rabs (Im s)).
Definition sbd_data_error (x : C) (symbs : list C) (i : nat) : result C :=
  let! s := getn symbs i in
  Ok ((Re s - Re x) * Rabs (Re s), (Im s - Im x) * Rabs (Im s)).
Definition mddma_error (x : C) (symbs : list C) (i : nat) : result C :=
  let s := fst (det_symbol x symbs) in
  Ok ((Re s ^ 2 - Re x ^ 2) * Re x, (Im s ^ 2 - Im x ^ 2) * Im x).
Definition ddlms_error (x : C) (symbs : list C) (i : nat) : result C :=
  Ok (fst (det_symbol x symbs) - x)%C.

Definition cma_error_real (x : R) (s1 : list R) (i : nat) : result R :=
  let! s := getn s1 0 in Ok ((s - Rabs x ^ 2) * x).
Definition sgncma_error_real (x : R) (s1 : list R) (i : nat) : result R :=
  let! s := getn s1 0 in Ok (sign (s - Rabs x ^ 2) * sign x).
Definition det_symbol_argmin_real (x : R) (symbs : list R) : result R :=
  let! idx := argmin (map (fun s => Rabs (x - s)) symbs) in getn symbs idx.
Definition dd_error_real (x : R) (symbs : list R) (i : nat) : result R :=
  let! s := det_symbol_argmin_real x symbs in Ok ((s - x) * Rabs s).
Definition dd_data_error_real (x : R) (symbs : list R) (i : nat) : result R :=
  let! s := getn symbs i in Ok ((s - x) * Rabs s).

Local Open Scope string_scope.
(** pythran_equalisation.py 131-152 and 81-90: the error function chosen for a method name *)
Definition select_error (method : string) : result (C -> list C -> nat -> result C) :=
  if method =? "mcma" then Ok mcma_error
  else if method =? "sgncma" then Ok cma_error
  else if method =? "cma2" then Ok cma2_error
  else if method =? "cma" then Ok cma_error
  else if method =? "sbd" then Ok sbd_error
  else if method =? "rde" then Ok rde_error
  else if method =? "mrde" then Ok mrde_error
  else if method =? "mddma" then Ok mddma_error
  else if method =? "dd" then Ok ddlms_error
  else if method =? "sbd_data" then Ok sbd_data_error
  else Err ValueError.
Definition select_error_real (method : string) : result (R -> list R -> nat -> result R) :=
  if method =? "cma" then Ok cma_error_real
  else if method =? "dd" then Ok dd_error_real
  else if method =? "dd_data" then Ok dd_data_error_real
  else if method =? "sgncma" then Ok sgncma_error_real
  else Err ValueError.
Local Close Scope string_scope.

(** pythran_equalisation.py 130-173 and 80-108 for a given schedule *)
Definition train_equaliser (E : list (list C)) (trsyms niter os ntaps : nat) (mu : R)
           (wx : list (list (list C))) (symbols : list (list C)) (method : string)
           (sched : list (nat * action)) : result (state (K := C)) :=
  let! f := select_error method in
  run C0 Cadd Cmul Cconj Cscal f adapt_step E os ntaps trsyms symbols
      (start C0 E trsyms niter mu wx) sched.
Definition train_equaliser_realvalued (E : list (list R)) (trsyms niter os ntaps : nat) (mu : R)
           (wx : list (list (list R))) (symbols : list (list R)) (method : string)
           (sched : list (nat * action)) : result (state (K := R)) :=
  let! f := select_error_real method in
  run 0 Rplus Rmult (fun x => x) Rmult f adapt_step_real E os ntaps trsyms symbols
      (start 0 E trsyms niter mu wx) sched.

(** ** equalisation.py *)

(** 87-96 *)
Local Open Scope string_scope.
Definition DECISION_BASED := ["sbd"; "mddma"; "dd"; "sbd_data"; "dd_real"; "dd_data_real"].
Definition NONDECISION_BASED := ["cma"; "cma2"; "mcma"; "rde"; "mrde"; "cma_real"; "sgncma_real"; "sgncma"].
Definition REAL_VALUED := ["cma_real"; "dd_real"; "dd_data_real"; "sgncma_real"].
Definition DATA_AIDED := ["dd_data_real"; "sbd_data"].
Local Close Scope string_scope.
Definition memb (m : string) (l : list string) : bool := existsb (String.eqb m) l.
(** str.lower of an ASCII string *)
Definition lower_char (c : ascii) : ascii :=
  let n := nat_of_ascii c in
  if ((65 <=? n) && (n <=? 90))%nat then ascii_of_nat (n + 32) else c.
Fixpoint lower (s : string) : string :=
  match s with EmptyString => EmptyString | String c s' => String (lower_char c) (lower s') end.
(** method[:-5] *)
Definition drop5 (s : string) : string := substring 0 (String.length s - 5) s.

(** 253-260; [modes] is the number of rows of the real array *)
Definition convert_sig_to_real (E : list (list C)) : list (list R) :=
  map (map Re) E ++ map (map Im) E.
(** numpy broadcasting of two arrays of rows: same number of rows, or one row *)
Definition bcast_rows {A B D} (f : A -> B -> D) (a : list (list A)) (b : list (list B)) : result (list (list D)) :=
  let row p := map (fun q => f (fst q) (snd q)) (combine (fst p) (snd p)) in
  if (length a =? length b)%nat then Ok (map row (combine a b))
  else match a, b with
       | [x], _ => Ok (map (fun y => row (x, y)) b)
       | _, [y] => Ok (map (fun x => row (x, y)) a)
       | _, _ => Err ValueError
       end.
Definition convert_sig_to_cmplx (E : list (list R)) (modes : nat) : result (list (list C)) :=
  bcast_rows (fun a b => (a, b)) (firstn (modes / 2) E) (skipn (modes / 2) E).

(** an array of reals or of complex numbers *)
Inductive array := ArrC (rows : list (list C)) | ArrR (rows : list (list R)).
Inductive taps := TapsC (w : list (list (list C))) | TapsR (w : list (list (list R))).

(** 138-188, apply_filter with method "pyt"; [l] is E.shape[1] *)
Definition core_apply_filter (E : array) (l os : nat) (wxy : taps) (ntaps : nat) (modes : option (list nat))
  : result (list (list C)) :=
  let nw := match wxy with TapsC w => length w | TapsR w => length w end in
  let ms := match modes with None => seq 0 nw | Some m => m end in
  match E, wxy with
  | ArrC e, TapsC w => apply_filter_to_signal C0 Cadd Cmul e l os w ntaps ms
  | ArrC e, TapsR w =>
      let! t := apply_filter_to_signal 0 Rplus Rmult (convert_sig_to_real e) l os w ntaps ms in
      convert_sig_to_cmplx t (length ms)
  | ArrR e, TapsR w =>
      let! t := apply_filter_to_signal 0 Rplus Rmult e l os w ntaps ms in
      convert_sig_to_cmplx t (length ms)
  | ArrR e, TapsC w => Err TypeError  (* no compiled signature *)
  end.

(** 190-251, apply_filter_py for complex arrays and modes=None (the only call, line 173).
    np.dot(X, ww.transpose()) needs matching lengths. *)
Definition cdot (a b : list C) : C := Csum (map (fun p => (fst p * snd p)%C) (combine a b)).
Definition apply_filter_py (E : list (list C)) (os : nat) (wxy : list (list (list C))) (ntaps : nat)
  : result (list (list C)) :=
  let nmodes := length wxy in
  let! segs := mapM (fun m => let! row := getn E m in
                              segment_axis row (Z.of_nat ntaps) (Z.of_nat ntaps - Z.of_nat os) Cut C0)
                    (seq 0 nmodes) in
  let! w0 := getn segs 0 in
  (* np.hstack of the frame matrices *)
  let! X := fold_left (fun acc s => let! a := acc in
              if (length a =? length s)%nat
              then Ok (map (fun p => fst p ++ snd p) (combine a s)) else Err ValueError)
              (tl segs) (Ok w0) in
  mapM (fun m => let! w := getn wxy m in
                 mapM (fun x => if (length x =? length (concat w))%nat
                                then Ok (cdot x (concat w)) else Err ValueError) X)
       (seq 0 nmodes).

(** 361-362, 364-373 *)
Definition cal_training_symbol_len (os ntaps l : nat) : Z :=
  ((Z.of_nat l / Z.of_nat os / Z.of_nat ntaps - 1) * Z.of_nat ntaps)%Z.
Definition init_taps {K} (kz ko : K) (ntaps nmodes nmodes2 : nat) : list (list (list K)) :=
  map (fun i => map (fun j => map (fun t => if (i =? j)%nat && (t =? ntaps / 2)%nat then ko else kz)
                                  (seq 0 ntaps)) (seq 0 nmodes2)) (seq 0 nmodes).

(** np.unique: sorted, without repetitions *)
Fixpoint uinsert (x : R) (l : list R) : list R :=
  match l with
  | [] => [x]
  | y :: l' => if Rlt_dec x y then x :: l else if Rlt_dec y x then y :: uinsert x l' else l
  end.
Definition unique (l : list R) : list R := fold_right uinsert [] l.
(** np.unique(abs(a)**4/abs(a)**2); a zero gives 0/0 = nan: [None] *)
Definition power_codes (l : list R) : option (list R) :=
  if forallb (fun x => if Req_EM_T x 0 then false else true) l
  then Some (unique (map (fun x => Rabs x ^ 4 / Rabs x ^ 2) l)) else None.
(** c[:-1] + np.diff(c)/2 *)
Fixpoint midpoints (l : list R) : list R :=
  match l with
  | a :: ((b :: _) as l') => (a + (b - a) / 2) :: midpoints l'
  | _ => []
  end.
(** numpy broadcasting of two one-dimensional arrays *)
Definition bcast {A B D} (f : A -> B -> D) (a : list A) (b : list B) : result (list D) :=
  if (length a =? length b)%nat then Ok (map (fun p => f (fst p) (snd p)) (combine a b))
  else match a, b with
       | [x], _ => Ok (map (f x) b)
       | _, [y] => Ok (map (fun x => f x y) a)
       | _, _ => Err ValueError
       end.
(** cal_symbols_qam(M)/sqrt(cal_scaling_factor_qam(M)) *)
Definition qam_alphabet (nbits : nat) : list C :=
  map (fun z => Cscal (/ sqrt (cal_scaling_factor_qam nbits)) (ZtoC z)) (cal_symbols_qam nbits).
(** 338-359, 311-336; [None] is an array with nan *)
Definition generate_partition_codes_radius (nbits : nat) : option (list R) :=
  match power_codes (map Cabs (qam_alphabet nbits)) with
  | Some codes => Some (codes ++ midpoints codes) | None => None end.
Definition generate_partition_codes_complex (nbits : nat) : result (option (list C)) :=
  match power_codes (map Re (qam_alphabet nbits)), power_codes (map Im (qam_alphabet nbits)) with
  | Some r, Some i =>
      let! codes := bcast (fun a b => (a, b)) r i in
      let! parts := bcast (fun a b => (a, b)) (midpoints r) (midpoints i) in
      Ok (Some (codes ++ parts))
  | _, _ => Ok None
  end.

(** 271-282 *)
Definition cal_Rconstant (nbits : nat) : R :=
  let s := qam_alphabet nbits in
  Rmean (map (fun x => Cabs x ^ 4) s) / Rmean (map (fun x => Cabs x ^ 2) s).
Definition cal_Rconstant_re (nbits : nat) : R :=
  let s := qam_alphabet nbits in
  Rmean (map (fun x => Re x ^ 4) s) / Rmean (map (fun x => Re x ^ 2) s).
(** the imaginary part is nan for an alphabet on the real axis *)
Definition cal_Rconstant_im (nbits : nat) : option R :=
  let s := qam_alphabet nbits in
  if forallb (fun x => if Req_EM_T (Im x) 0 then true else false) s then None
  else Some (Rmean (map (fun x => Im x ^ 4) s) / Rmean (map (fun x => Im x ^ 2) s)).

(** 101-136; an array with nan is [Ok None] *)
Definition generate_symbols_for_eq (method : string) (nbits : nat) : result (option array) :=
  let oneC x := Ok (Some (ArrC [[x]])) in
  let al := qam_alphabet nbits in
  (if method =? "cma" then oneC (cal_Rconstant nbits, 0)
   else if method =? "cma2" then oneC (cal_Rconstant nbits, 0)
   else if method =? "sgncma" then oneC (cal_Rconstant nbits, 0)
   else if method =? "mcma" then
     Ok match cal_Rconstant_im nbits with Some i => Some (ArrC [[(cal_Rconstant_re nbits, i)]]) | None => None end
   else if method =? "rde" then
     Ok match generate_partition_codes_radius nbits with
        | Some p => Some (ArrC [map RtoC p]) | None => None end
   else if method =? "mrde" then
     let! p := generate_partition_codes_complex nbits in
     Ok match p with Some p => Some (ArrC [p]) | None => None end
   else if method =? "sbd" then Ok (Some (ArrC [al]))
   else if method =? "mddma" then Ok (Some (ArrC [al]))
   else if method =? "dd" then Ok (Some (ArrC [al]))
   else if method =? "sgncma_real" then Ok (Some (ArrR [[cal_Rconstant_re nbits]; [cal_Rconstant_re nbits]]))
   else if method =? "cma_real" then Ok (Some (ArrR [[cal_Rconstant_re nbits]; [cal_Rconstant_re nbits]]))
   else if method =? "dd_real" then Ok (Some (ArrR [map Re al; map Im al]))
   else Err ValueError)%string.

(** 568-594.  A one-dimensional complex array is the array with this row; one-dimensional real
    arrays are not modelled. *)
Definition repeat_rows {A} (a b : list A) (n : nat) : list (list A) := repeat a n ++ repeat b n.
Definition reshape_symbols (symbols : option array) (method : string) (nbits nmodes : nat)
  : result (option array) :=
  let! s := (match symbols with
             | None => generate_symbols_for_eq method nbits
             | Some a => if memb method NONDECISION_BASED then generate_symbols_for_eq method nbits
                         else Ok (Some a)
             end) in
  match s with
  | None => Ok None
  | Some a =>
    if memb method REAL_VALUED then
      match a with
      | ArrC [row] => Ok (Some (ArrR (repeat_rows (map Re row) (map Im row) (nmodes / 2))))
      | ArrC rows => if (length rows =? nmodes / 2)%nat
                     then Ok (Some (ArrR (map (map Re) rows ++ map (map Im) rows))) else Err ValueError
      | ArrR rows =>
          match rows with
          | [r1; r2] => if (2 <? nmodes)%nat then Ok (Some (ArrR (repeat_rows r1 r2 (nmodes / 2))))
                        else if (2 =? nmodes)%nat then Ok (Some a) else Err ValueError
          | _ => if (length rows =? nmodes)%nat then Ok (Some a) else Err ValueError
          end
      end
    else
      let rows := match a with ArrC r => r | ArrR r => map (map RtoC) r end in
      match rows with
      | [row] => Ok (Some (ArrC (repeat row nmodes)))
      | _ => if (length rows =? nmodes)%nat then Ok (Some (ArrC rows)) else Err ValueError
      end
  end.

(** 468-566, equalise_signal up to the training kernel: the arguments of the kernel.
    [l] is E.shape[1]; modes are non-negative; references with nan are an error here
    (training would fill the taps with nan). *)
Record job := Job {
  j_E : array; j_trsyms : nat; j_ntaps : nat; j_wx : taps; j_modes : list nat;
  j_symbols : array; j_method : string }.
Definition wx_shape {K} (w : list (list (list K))) (n : nat) : bool :=
  (length w =? n)%nat && forallb (fun r => length r =? n)%nat w.
Definition prepare (E : list (list C)) (l os nbits : nat) (wxy : option taps) (ntaps : nat)
           (trsyms : option Z) (method0 : string) (symbols : option array) (modes : option (list nat))
  : result job :=
  let method := lower method0 in
  let real := memb method REAL_VALUED in
  let e := if real then ArrR (convert_sig_to_real E) else ArrC E in
  let nmodes := if real then (2 * length E)%nat else length E in
  let ms := match modes with
            | None => seq 0 nmodes
            | Some m => if real then m ++ map (fun x => x + nmodes / 2)%nat m else m end in
  if negb (forallb (fun m => m <? nmodes)%nat ms) then Err AssertionError else
  let! w := match wxy, real with
            | None, false => Ok (TapsC (init_taps C0 C1 ntaps nmodes nmodes))
            | None, true => Ok (TapsR (init_taps 0 1 ntaps nmodes nmodes))
            | Some (TapsC w), false => if wx_shape w nmodes then Ok (TapsC w) else Err AssertionError
            | Some (TapsR w), true => if wx_shape w nmodes then Ok (TapsR w) else Err AssertionError
            | Some (TapsR w), false =>
                if wx_shape w nmodes then Ok (TapsC (map (map (map RtoC)) w)) else Err AssertionError
            | Some (TapsC w), true =>
                if wx_shape w nmodes then Ok (TapsR (map (map (map Re)) w)) else Err AssertionError
            end in
  let t := match trsyms with None => cal_training_symbol_len os ntaps l | Some t => t end in
  let! s := reshape_symbols symbols method nbits nmodes in
  if (t <? 0)%Z then Err ValueError else
  match s with
  | None => Err ValueError
  | Some s => Ok (Job e (Z.to_nat t) ntaps w ms s (if real then drop5 method else method))
  end.

(** the trained taps and, with apply=True, the equalised signal (554-566) *)
Definition equalise_signal (E : list (list C)) (l os nbits : nat) (mu : R) (wxy : option taps)
           (ntaps : nat) (trsyms : option Z) (niter : nat) (method : string)
           (symbols : option array) (modes : option (list nat)) (sched : list (nat * action))
  : result (taps * job) :=
  let! j := prepare E l os nbits wxy ntaps trsyms method symbols modes in
  match j_E j, j_wx j, j_symbols j with
  | ArrC e, TapsC w, ArrC s =>
      let! st := train_equaliser e (j_trsyms j) niter os ntaps mu w s (j_method j) sched in
      Ok (TapsC (s_wx st), j)
  | ArrR e, TapsR w, ArrR s =>
      let! st := train_equaliser_realvalued e (j_trsyms j) niter os ntaps mu w s (j_method j) sched in
      Ok (TapsR (s_wx st), j)
  | _, _, _ => Err TypeError
  end.
Definition equalise_signal_apply (E : list (list C)) (l os nbits : nat) (mu : R) (wxy : option taps)
           (ntaps : nat) (trsyms : option Z) (niter : nat) (method : string)
           (symbols : option array) (modes : option (list nat)) (sched : list (nat * action))
  : result (list (list C) * taps) :=
  let! r := equalise_signal E l os nbits mu wxy ntaps trsyms niter method symbols modes sched in
  let '(w, j) := r in
  let! e := core_apply_filter (j_E j) l os w ntaps (Some (j_modes j)) in Ok (e, w).

(** 400-466, dual_mode_equalisation for one array of references (it is used for both stages;
    [None] becomes an object array that no kernel accepts unless the method ignores it) *)
Definition stage_symbols (symbols : option array) (method : string) : result (option array) :=
  match symbols with
  | Some a => Ok (Some a)
  | None => if memb (lower method) NONDECISION_BASED then Ok None else Err TypeError
  end.
Definition dual_mode_equalisation (E : list (list C)) (l os nbits : nat) (mu : R * R) (wxy : option taps)
           (ntaps : nat) (trsyms : option Z * option Z) (niter : nat * nat) (methods : string * string)
           (symbols : option array) (modes : option (list nat))
           (sched : list (nat * action) * list (nat * action)) : result (list (list C) * taps) :=
  let! s1 := stage_symbols symbols (fst methods) in
  let! r1 := equalise_signal E l os nbits (fst mu) wxy ntaps (fst trsyms) (fst niter) (fst methods)
                             s1 modes (fst sched) in
  let! s2 := stage_symbols symbols (snd methods) in
  let! r2 := equalise_signal E l os nbits (snd mu) (Some (fst r1)) ntaps (snd trsyms) (snd niter)
                             (snd methods) s2 modes (snd sched) in
  let! e := core_apply_filter (ArrC E) l os (fst r2) ntaps modes in
  Ok (e, fst r2).

(** ** qampy/equalisation.py 122-266: the references taken from the signal object.
    [symbols] is sig.symbols, [coded] is sig.coded_symbols (absent for some classes). *)
Definition user_symbols (methods : list string) (given : option array) (symbols : array)
           (coded : option array) : option array :=
  match given with
  | Some a => Some a
  | None => fold_left (fun acc m => if memb m DATA_AIDED then Some symbols else coded) methods None
  end.
