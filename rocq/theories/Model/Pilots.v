(** Pilot frames: signals.py class SignalWithPilots (1430-1952).

    Generic in the symbol type [A].  A signal is its rows (modes) plus the attributes used by the
    methods below; dtype, fb/fs keyword handling and the attributes inherited from the payload are
    not modelled (see Model/SignalObj.v for attributes). *)
From Coq Require Import List ZArith Arith Bool.
From Verif Require Import Common.Py Model.Sync.
Import ListNotations.

(** ** numpy assignment with broadcasting *)
(** values [v] broadcast to [n] elements: same length or a single one *)
Definition bcast {A} (v : list A) (n : nat) : result (list A) :=
  if length v =? n then Ok v
  else match v with [a] => Ok (repeat a n) | _ => Err ValueError end.
(** row[mask] = v *)
Definition mask_assign {A} (m : list bool) (v row : list A) : result (list A) :=
  if negb (length m =? length row) then Err IndexError else
  let! v' := bcast v (count_true m) in Ok (mask_put m v' row).
(** row[ints] = v *)
Fixpoint ints_put {A} (ix : list nat) (v row : list A) : result (list A) :=
  match ix, v with
  | i :: ix', a :: v' => let! r := setn i a row in ints_put ix' v' r
  | _, _ => Ok row
  end.
Definition ints_assign {A} (ix : list nat) (v row : list A) : result (list A) :=
  let! v' := bcast v (length ix) in ints_put ix v' row.

(** the index attributes _idx_dat, _idx_pil: a boolean mask (lines 1533-1545) or, when pilot_idx is
    given, an array of integers (lines 1594-1598) *)
Inductive idxset := IMask (m : list bool) | IInts (l : list nat).
Definition idx_assign {A} (s : idxset) (v row : list A) : result (list A) :=
  match s with IMask m => mask_assign m v row | IInts l => ints_assign l v row end.
Definition idx_get {A} (s : idxset) (row : list A) : result (list A) :=
  match s with IMask m => mask_get m row | IInts l => fancy_get l row end.
(** np.count_nonzero: True entries, or non-zero integers *)
Definition count_nonzero (s : idxset) : nat :=
  match s with IMask m => count_true m | IInts l => length (filter (fun k => negb (k =? 0)) l) end.
(** np.nonzero(.)[0] *)
Definition idx_nonzero (s : idxset) : list nat :=
  match s with IMask m => nonzero m | IInts l => nonzero (map (fun k => negb (k =? 0)) l) end.
(** conversion to bool on assignment into a boolean array *)
Definition idx_bools (s : idxset) : list bool :=
  match s with IMask m => m | IInts l => map (fun k => negb (k =? 0)) l end.

(** out[:, idx] = vals for a two-dimensional array of values *)
Definition rows_assign {A} (s : idxset) (vals rows : list (list A)) : result (list (list A)) :=
  let! vs := bcast vals (length rows) in
  mapM (fun p => idx_assign s (fst p) (snd p)) (combine vs rows).

(** l[lo:hi] = v *)
Definition slice_assign {A} (lo hi : Z) (v l : list A) : result (list A) :=
  let n := Z.of_nat (length l) in
  let a := Z.to_nat (clipz n lo) in
  let b := Z.to_nat (clipz n hi) in
  let! v' := bcast v (b - a) in Ok (firstn a l ++ v' ++ skipn (Nat.max a b) l).

(** ** pilot positions, lines 1533-1545; pilot_ins_rat None is treated like 0 *)
Definition cal_pilot_idx (frame_len : nat) (seq_len rat : Z) : result (list bool * list bool) :=
  let idx := map Z.of_nat (seq 0 frame_len) in
  let! idx_pil :=
    (if (rat =? 0)%Z then Ok (map (fun k => (k <? seq_len)%Z) idx)
     else if negb ((Z.of_nat frame_len - seq_len) mod rat =? 0)%Z then Err ValueError
     else Ok (map (fun k => negb (negb ((k - seq_len) mod rat =? 0)%Z && (0 <? k - seq_len)%Z)) idx)) in
  Ok (map negb idx_pil, idx_pil).

Section Signal.
Context {A : Type}.

Record psig := mk_psig {
  p_rows : list (list A);       (* the array itself *)
  p_os : nat;                   (* int(fs/fb) *)
  p_frame_len : nat;
  p_seq_len : Z;
  p_symbols : list (list A);
  p_pilots : list (list A);
  p_idx_dat : idxset;
  p_idx_pil : idxset }.

(** ** constructor, lines 1494-1530.  [genp n], [gend n] are the pilot and payload signals of n
    symbols drawn by SignalQAMGrayCoded / dataclass (pilots already multiplied by pilot_scale);
    [junk] is the content of np.empty. *)
Definition pilot_new (junk : A) (genp gend : nat -> list (list A))
  (frame_len : nat) (seq_len rat : Z) (nframes nmodes : nat) (repeat_data repeat_pilots : bool) : result psig :=
  let out0 := repeat (repeat junk (frame_len * nframes)) nmodes in
  let! id := cal_pilot_idx frame_len seq_len rat in
  let idx_dat := fst id in let idx_pil := snd id in
  let np := count_true idx_pil in
  let nd := count_true idx_dat in
  let pilots := if repeat_pilots then map (tile nframes) (genp np) else genp np in
  let! out1 := rows_assign (IMask (tile nframes idx_pil)) pilots out0 in
  let symbs := if repeat_data then map (tile nframes) (gend nd) else gend (nd * nframes) in
  let! out2 := rows_assign (IMask (tile nframes idx_dat)) symbs out1 in
  Ok (mk_psig out2 1 frame_len seq_len symbs pilots (IMask idx_dat) (IMask idx_pil)).

(** ** lines 1675-1681 *)
Definition p_nframes (s : psig) : result nat :=
  let d := p_os s * p_frame_len s in
  if d =? 0 then Err ZeroDivisionError else Ok (row_len (p_rows s) / d).

(** np.max *)
Definition zmax (l : list Z) : result Z :=
  match l with [] => Err ValueError | a :: l' => Ok (fold_left Z.max l' a) end.

(** the mask built in lines 1774-1778 *)
Fixpoint fill_frames (frames : list Z) (fl : nat) (dat : list bool) (idx : list bool) : result (list bool) :=
  match frames with
  | [] => Ok idx
  | i :: rest =>
      let! idx' := slice_assign (i * Z.of_nat fl) ((i + 1) * Z.of_nat fl) dat idx in
      fill_frames rest fl dat idx'
  end.

(** ** get_data, lines 1753-1781; returns the rows of the result *)
Definition get_data (s : psig) (frames : option (list Z)) : result (list (list A)) :=
  let! nf := p_nframes s in
  let! fn :=
    (match frames with
     | None => Ok (map Z.of_nat (seq 0 nf), Z.of_nat nf)
     | Some fs => let! m := zmax fs in if (m <=? Z.of_nat nf)%Z then Ok (fs, m) else Err AssertionError
     end) in
  if (snd fn <? 1)%Z then
    mapM (idx_get (match p_idx_dat s with
                   | IMask m => IMask (firstn (row_len (p_rows s)) m)
                   | IInts l => IInts (firstn (row_len (p_rows s)) l) end)) (p_rows s)
  else
    let! idx := fill_frames (fst fn) (p_frame_len s) (idx_bools (p_idx_dat s))
                  (repeat false (p_frame_len s * Z.to_nat (snd fn))) in
    mapM (mask_get idx) (p_rows s).

(** ** extract_pilots, lines 1783-1804.  np.hstack of an empty list is a ValueError *)
Definition extract_pilots (s : psig) (frames : option (list Z)) : result (list (list A)) :=
  let! nf := p_nframes s in
  let! fs :=
    (match frames with
     | None => Ok (map Z.of_nat (seq 0 nf))
     | Some fs => let! m := zmax fs in if (m <=? Z.of_nat nf)%Z then Ok fs else Err AssertionError
     end) in
  match fs with
  | [] => Err ValueError
  | _ =>
      let idx := flat_map (fun i => map (fun k => (Z.of_nat k + i * Z.of_nat (p_frame_len s))%Z) (idx_nonzero (p_idx_pil s))) fs in
      mapM (fun row => mapM (getz row) idx) (p_rows s)
  end.

(** the frames argument with which cal_gmi calls get_data by default, lines 1909-1912 *)
Definition gmi_data (s : psig) (frames : option (list Z)) : result (list (list A)) :=
  let! nf := p_nframes s in
  get_data s (Some (match frames with None => map Z.of_nat (seq 0 nf) | Some f => f end)).

(** idx_payload, idx_pilots: lines 1686-1694 (masks) *)
Definition idx_payload (s : psig) : result (list bool) :=
  match p_idx_dat s with
  | IMask m => let! nf := p_nframes s in Ok (firstn (row_len (p_rows s)) (tile nf m))
  | IInts _ => Err TypeError
  end.

(** ** from_symbol_array, lines 1547-1645 *)
(** pilot_idx: lines 1594-1598; indices given by the user may be negative, out of range raises *)
Fixpoint set_all (ix : list Z) (m : list bool) : result (list bool) :=
  match ix with
  | [] => Ok m
  | i :: rest =>
      let n := Z.of_nat (length m) in
      let j := if (i <? 0)%Z then (i + n)%Z else i in
      if ((j <? 0) || (n <=? j))%Z then Err IndexError
      else set_all rest (upd (Z.to_nat j) true m)
  end.
Definition frame_idx (frame_len : nat) (seq_len rat : Z) (pilot_idx : option (list Z)) : result (idxset * idxset) :=
  match pilot_idx with
  | None => let! id := cal_pilot_idx frame_len seq_len rat in Ok (IMask (fst id), IMask (snd id))
  | Some ix =>
      let! pidx := set_all ix (repeat false frame_len) in
      Ok (IInts (nonzero (map negb pidx)), IInts (nonzero pidx))
  end.

(** Arguments: [pilots] None means generated by [genp]; [conv_pil], [conv_pay m] are the
    conversions pilot_class.from_symbol_array / payload_class.from_symbol_array with M = m applied
    to plain arrays ([is_sig] tells whether the payload / the pilots already are signal objects). *)
Definition from_symbol_array_core (junk : A) (genp : nat -> list (list A))
  (conv_pil : list (list A) -> result (list (list A))) (conv_pay : option nat -> list (list A) -> result (list (list A)))
  (payload : list (list A)) (pay_is_sig : bool) (frame_len : nat) (idx_dat idx_pil : idxset) (seq_len : Z)
  (pilots : option (list (list A) * bool)) (payload_m : option nat) (nframes : nat) (payload_is_frame : bool)
  : result psig :=
  let nmodes := length payload in
  (* lines 1607-1609 *)
  let! pp :=
    (if payload_is_frame then
       let! pl := mapM (idx_get idx_pil) payload in
       let! pl' := conv_pil pl in
       let! dl := mapM (idx_get idx_dat) payload in
       let! dl' := conv_pay payload_m dl in
       Ok (Some (pl', true), dl', true)
     else Ok (pilots, payload, pay_is_sig)) in
  let '(pilots, payload, pay_is_sig) := pp in
  let out0 := repeat (repeat junk frame_len) nmodes in
  let ndat := count_nonzero idx_dat in
  let! pil :=
    (match pilots with
     | None => Ok (genp (count_nonzero idx_pil))
     | Some (p, p_sig) =>
         if length p =? nmodes then (if p_sig then Ok p else conv_pil p)
         else match p with
              | [row] => conv_pil (repeat row nmodes)
              | _ => Err AssertionError
              end
     end) in
  let! pay := (if pay_is_sig then Ok payload else conv_pay payload_m payload) in
  let! out1 := rows_assign idx_pil pil out0 in
  let! out2 := rows_assign idx_dat (map (firstn ndat) pay) out1 in
  Ok (mk_psig (map (tile nframes) out2) 1 frame_len seq_len (map (firstn ndat) pay) pil idx_dat idx_pil).

(** the whole call.  [dflt] is the current content (key "M") of the default value of payload_kwargs,
    a dictionary shared by all calls (line 1550); [explicit] is payload_kwargs when passed, [kw_m] is
    M in **kwargs.  Returns the new content of the default too. *)
Definition from_symbol_array (junk : A) genp conv_pil conv_pay (dflt : option nat)
  (payload : list (list A)) (pay_is_sig : bool) (frame_len : nat) (seq_len rat : Z)
  (pilot_idx : option (list Z)) (pilots : option (list (list A) * bool)) (explicit : option (option nat))
  (kw_m : option nat) (nframes : nat) (payload_is_frame : bool) : result psig * option nat :=
  match frame_idx frame_len seq_len rat pilot_idx with
  | Err e => (Err e, dflt)
  | Ok (idx_dat, idx_pil) =>
      if negb (count_nonzero idx_dat <=? row_len payload) then (Err AssertionError, dflt) else
      let cur := match explicit with Some e => e | None => dflt end in
      match kw_m, cur with
      | Some _, Some _ => (Err AssertionError, dflt)
      | _, _ =>
          let new := match kw_m with Some m => Some m | None => cur end in
          (from_symbol_array_core junk genp conv_pil conv_pay payload pay_is_sig frame_len idx_dat idx_pil
             seq_len pilots new nframes payload_is_frame,
           match explicit with Some _ => dflt | None => new end)
      end
  end.

(** one call with its arguments, and a history of calls in one process: the module-level default
    starts as the empty dictionary of line 1550 *)
Record fsa_args := mk_args {
  a_payload : list (list A); a_pay_sig : bool; a_frame_len : nat; a_seq_len : Z; a_rat : Z;
  a_pilot_idx : option (list Z); a_pilots : option (list (list A) * bool);
  a_explicit : option (option nat); a_kw_m : option nat; a_nframes : nat; a_is_frame : bool }.
Definition fsa_call (junk : A) genp conv_pil conv_pay (dflt : option nat) (a : fsa_args) : result psig * option nat :=
  from_symbol_array junk genp conv_pil conv_pay dflt (a_payload a) (a_pay_sig a) (a_frame_len a) (a_seq_len a) (a_rat a)
    (a_pilot_idx a) (a_pilots a) (a_explicit a) (a_kw_m a) (a_nframes a) (a_is_frame a).
Definition fsa_state (junk : A) genp conv_pil conv_pay (hist : list fsa_args) : option nat :=
  fold_left (fun d a => snd (fsa_call junk genp conv_pil conv_pay d a)) hist None.
End Signal.
Arguments psig A : clear implicits.
Arguments fsa_args A : clear implicits.
