(** Signal objects: attributes of the ndarray subclasses of signals.py under array operations,
    pickling and recreation (signals.py 75-142, 144-243, 611-676, 950-1058, 1142-1315, 1430-1530,
    1806-1807, core/io.py 29-65).

    Objects live in a heap, attribute values are opaque data, None or references; attributes hold
    references because a signal and its reference symbols refer to each other.  The samples of an
    array are rows of opaque data.  Two facts about numpy are part of the model: views, slices,
    copies, results of ufuncs, astype, repeat and take call __array_finalize__ with the array they
    come from, np.concatenate (np.vstack, np.hstack, np.append) and the reconstruction of a pickled
    array call it with None.  pickle keeps shared references and cycles. *)
From Coq Require Import String List Arith Bool.
From Verif Require Import Common.Py.
Import ListNotations.
Open Scope string_scope.
Open Scope list_scope.

Inductive cls := NDArray | RandomBits | PRBSBits | QAM | PSK | FromBERT | SymbolOnly | Resampled | TDHQAM | WithPilots.
Definition cls_eqb (a b : cls) : bool :=
  match a, b with
  | NDArray, NDArray | RandomBits, RandomBits | PRBSBits, PRBSBits | QAM, QAM | PSK, PSK
  | FromBERT, FromBERT | SymbolOnly, SymbolOnly | Resampled, Resampled | TDHQAM, TDHQAM | WithPilots, WithPilots => true
  | _, _ => false
  end.
(** line 146 *)
Definition inheritbase : list string := ["_fs"; "_fb"; "_M"].
(** lines 147, 612, 1044, 1229, 1490; PSK, FromBERT and Resampled inherit the list of QAM *)
Definition inheritattr (c : cls) : list string :=
  match c with
  | QAM | PSK | FromBERT | Resampled => ["_symbols"; "_bits"; "_encoding"; "_bitmap_mtx"; "_code"; "_coded_symbols"]
  | SymbolOnly => ["_symbols"; "_coded_symbols"]
  | TDHQAM => ["_symbols_M1"; "_symbols_M2"; "_fr"; "_powratio"]
  | WithPilots => ["_pilots"; "_symbols"; "_frame_len"; "_pilot_seq_len"; "_nframes"; "_idx_dat"; "_pilot_scale";
                   "_pilot_ins_rat"; "_shiftfctrs"; "_synctaps"; "_idx_pil"; "_foe"]
  | NDArray | RandomBits | PRBSBits => []
  end.
Definition is_signal (c : cls) : bool := match c with NDArray | RandomBits | PRBSBits => false | _ => true end.

Section Objects.
Context {D : Type}.
Inductive val := VNone | VLeaf (x : D) | VRef (o : nat).
Record cell := { c_cls : cls; c_data : list (list D); c_attrs : list (string * val) }.
Definition heap := list cell.

Fixpoint lookup (a : string) (l : list (string * val)) : option val :=
  match l with
  | [] => None
  | (b, v) :: l' => if (b =? a)%string then Some v else lookup a l'
  end.
(** obj.__dict__[a] = v *)
Fixpoint set_attr (a : string) (v : val) (l : list (string * val)) : list (string * val) :=
  match l with
  | [] => [(a, v)]
  | (b, w) :: l' => if (b =? a)%string then (a, v) :: l' else (b, w) :: set_attr a v l'
  end.

(** getattr(o, a) for names that are neither methods nor properties; a SignalWithPilots without the
    attribute asks its symbols (1806-1807), which recurses for ever if it has none *)
Fixpoint getattr_f (fuel : nat) (h : heap) (o : nat) (a : string) : result val :=
  match fuel with
  | O => Err RecursionError
  | S fuel =>
      match nth_error h o with
      | None => Err IndexError (* no such object *)
      | Some c =>
          match lookup a (c_attrs c) with
          | Some v => Ok v
          | None =>
              if cls_eqb (c_cls c) WithPilots then
                let! s := getattr_f fuel h o "_symbols" in
                match s with VRef s => getattr_f fuel h s a | _ => Err AttributeError end
              else Err AttributeError
          end
      end
  end.
Definition getattr (h : heap) (o : nat) (a : string) : result val := getattr_f (S (length h)) h o a.
(** getattr(o, a, None): only AttributeError is caught *)
Definition getattr_none (h : heap) (o : nat) (a : string) : result val :=
  match getattr h o a with Err AttributeError => Ok VNone | r => r end.

(** __array_finalize__: lines 83-87, 139-142, 190-201; [t] is the template *)
Definition finalize (h : heap) (c : cls) (t : option nat) : result (list (string * val)) :=
  match t with
  | None => Ok []
  | Some t =>
      let get := mapM (fun a => let! v := getattr_none h t a in Ok (a, v)) in
      match c with
      | NDArray => Ok []
      | RandomBits => get ["_seed"; "_rand_state"]
      | PRBSBits => get ["_seed"; "_order"]
      | _ =>
          let! l := get (inheritbase ++ inheritattr c) in
          match getattr h t "_symbols" with
          | Ok VNone => Ok (set_attr "_symbols" (VRef t) l)
          | Ok v => Ok (set_attr "_symbols" v l)
          | Err AttributeError => Ok l
          | Err e => Err e
          end
      end
  end.
(** a new array of class c with the given samples: the heap and the object *)
Definition alloc (h : heap) (c : cls) (data : list (list D)) (t : option nat) : result (heap * nat) :=
  let! l := finalize h c t in
  Ok (h ++ [{| c_cls := c; c_data := data; c_attrs := l |}], length h).
(** slices, views, copies, results of ufuncs ...: an array of the same class *)
Definition derive (h : heap) (o : nat) (data : list (list D)) : result (heap * nat) :=
  match nth_error h o with
  | None => Err IndexError
  | Some c => alloc h (c_cls c) data (Some o)
  end.
(** np.concatenate and everything built on it *)
Definition concatenate (h : heap) (o : nat) (data : list (list D)) : result (heap * nat) :=
  match nth_error h o with
  | None => Err IndexError
  | Some c => alloc h (c_cls c) data None
  end.
Definition update (h : heap) (o : nat) (f : cell -> cell) : heap :=
  match nth_error h o with
  | None => h
  | Some c => firstn o h ++ [f c] ++ skipn (S o) h
  end.
(** o.a = v *)
Definition setattr (h : heap) (o : nat) (a : string) (v : val) : heap :=
  update h o (fun c => {| c_cls := c_cls c; c_data := c_data c; c_attrs := set_attr a v (c_attrs c) |}).
Definition setattrs (h : heap) (o : nat) (l : list (string * val)) : heap :=
  fold_left (fun h p => setattr h o (fst p) (snd p)) l h.

(** ** pickling, lines 150-165; the attributes that __reduce__ of the class saves *)
Definition saved (c : cls) : list string := if is_signal c then inheritbase ++ inheritattr c else [].
Definition state (h : heap) (o : nat) : result (list (string * val)) :=
  match nth_error h o with
  | None => Err IndexError
  | Some c => mapM (fun a => let! v := getattr h o a in Ok (a, v)) (saved (c_cls c))
  end.
Definition refs (l : list (string * val)) : list nat :=
  flat_map (fun p => match snd p with VRef o => [o] | _ => [] end) l.
Fixpoint reach (fuel : nat) (h : heap) (os : list nat) : list nat :=
  match fuel with
  | O => os
  | S fuel => reach fuel h (nodup Nat.eq_dec (os ++ flat_map (fun o => match state h o with Ok l => refs l | Err _ => [] end) os))
  end.
Definition shift_ref (n : nat) (v : val) : val := match v with VRef o => VRef (n + o) | v => v end.
(** __setstate__ on the reconstructed array, which has no attributes; objects that are not reachable
    from the pickled one are copied too, which nothing can see *)
Definition restored (h : heap) (i : nat) : cell :=
  match nth_error h i, state h i with
  | Some c, Ok l => {| c_cls := c_cls c; c_data := c_data c; c_attrs := map (fun p => (fst p, shift_ref (length h) (snd p))) l |}
  | _, _ => {| c_cls := NDArray; c_data := []; c_attrs := [] |}
  end.
(** pickle.loads(pickle.dumps(o)), also save_signal and load_signal *)
Definition pickle (h : heap) (o : nat) : result (heap * nat) :=
  let! _ := mapM (state h) (reach (length h) h [o]) in
  Ok (h ++ map (restored h) (seq 0 (length h)), length h + o).

(** ** _copy_inherits, lines 183-188, from object [old] to object [new] *)
Definition copy_inherits (h : heap) (old new : nat) : result heap :=
  match nth_error h old with
  | None => Err IndexError
  | Some c =>
      let! l := mapM (fun a => let! v := getattr h old a in Ok (a, v)) (inheritbase ++ inheritattr (c_cls c)) in
      Ok (setattrs h new l)
  end.
(** properties without setter whose name with an underscore is not an inherited attribute: lines
    180, 881-885, 1284-1294, 1648-1693 *)
Definition readonly (c : cls) : list string :=
  match c with
  | NDArray | RandomBits | PRBSBits => []
  | QAM | PSK | FromBERT | Resampled => ["os"; "Nbits"]
  | SymbolOnly => ["os"; "Nbits"; "bits"]
  | TDHQAM => ["os"; "f_M"; "f_M1"; "f_M2"]
  | WithPilots => ["os"; "Mpilots"; "pilot_seq"; "ph_pilots"; "idx_payload"; "idx_pilots"]
  end.
Definition member (a : string) (l : list string) : bool := existsb (fun b => (b =? a)%string) l.
(** the loop over the keyword arguments, lines 214-219 *)
Fixpoint set_kwargs (h : heap) (c : cls) (o : nat) (kw : list (string * val)) : result heap :=
  match kw with
  | [] => Ok h
  | (k, v) :: kw =>
      let k' := append "_" k in
      if member k' (inheritbase ++ inheritattr c) then set_kwargs (setattr h o k' v) c o kw
      else if member k (readonly c) then Err AttributeError
      else set_kwargs (setattr h o k v) c o kw
  end.
(** recreate_from_np_array, lines 209-221: [arr] is the array object, [kw] the keyword arguments;
    [rate fs fb fb'] is int(fs/fb)*fb' *)
Definition recreate (rate : D -> D -> D -> result D) (h : heap) (o arr : nat) (kw : list (string * val)) : result (heap * nat) :=
  match nth_error h o, nth_error h arr with
  | Some c, Some d =>
      let! p := alloc h (c_cls c) (c_data d) (Some arr) in
      let! h1 := copy_inherits (fst p) o (snd p) in
      let! kw := (match lookup "fb" kw, lookup "fs" kw with
                  | Some fb', None =>
                      let! fs := getattr h o "_fs" in
                      let! fb := getattr h o "_fb" in
                      match fs, fb, fb' with
                      | VLeaf fs, VLeaf fb, VLeaf fb' => let! r := rate fs fb fb' in Ok (kw ++ [("fs", VLeaf r)])
                      | _, _, _ => Err TypeError
                      end
                  | _, _ => Ok kw
                  end) in
      let! h2 := set_kwargs h1 (c_cls c) (snd p) kw in
      Ok (h2, snd p)
  | _, _ => Err IndexError
  end.
(** SignalWithPilots, lines 1949-1952; [nframes] is samples // (int(fs/fb) * frame_len), line 1677 *)
Definition recreate_pilots (rate : D -> D -> D -> result D) (nframes : nat -> D -> D -> D -> result nat) (h : heap) (o arr : nat) (kw : list (string * val)) : result (heap * nat) :=
  let! p := recreate rate h o arr kw in
  let! fs := getattr (fst p) (snd p) "_fs" in
  let! fb := getattr (fst p) (snd p) "_fb" in
  let! fl := getattr (fst p) (snd p) "_frame_len" in
  match fs, fb, fl, nth_error (fst p) (snd p) with
  | VLeaf fs, VLeaf fb, VLeaf fl, Some c =>
      let! n := nframes (length (hd [] (c_data c))) fs fb fl in
      if n =? 0 then Err AssertionError else Ok p
  | _, _, _, _ => Err TypeError
  end%nat.

(** ** constructors.  A plain array of the given samples, its view as class c, then the attributes *)
Definition fresh (h : heap) (c : cls) (data : list (list D)) (l : list (string * val)) : result (heap * nat) :=
  let h0 := (h ++ [{| c_cls := NDArray; c_data := data; c_attrs := [] |}]) in
  let! p := alloc h0 c data (Some (length h)) in
  Ok (setattrs (fst p) (snd p) l, snd p).
(** lines 75-81 *)
Definition random_bits (h : heap) (data : list (list D)) (rand_state : D) (seed : val) : result (heap * nat) :=
  fresh h RandomBits data [("_rand_state", VLeaf rand_state); ("_seed", seed)].
(** 132-137 *)
Definition prbs_bits (h : heap) (data : list (list D)) (order seed : val) : result (heap * nat) :=
  fresh h PRBSBits data [("_order", order); ("_seed", seed)].
(** obj._symbols = obj.copy() *)
Definition own_symbols (p : heap * nat) : result (heap * nat) :=
  match nth_error (fst p) (snd p) with
  | None => Err IndexError
  | Some c => let! q := derive (fst p) (snd p) (c_data c) in
              Ok (setattr (fst q) (snd p) "_symbols" (VRef (snd q)), snd p)
  end.
(** 658-675 and 990-1002: c is QAM, PSK or FromBERT; bits an object *)
Definition qam_new (h : heap) (c : cls) (data : list (list D)) (bits : nat) (bitmap encoding coded M fb code : D) : result (heap * nat) :=
  let! p := fresh h c data [("_bitmap_mtx", VLeaf bitmap); ("_encoding", VLeaf encoding); ("_coded_symbols", VLeaf coded);
                            ("_M", VLeaf M); ("_fb", VLeaf fb); ("_fs", VLeaf fb); ("_code", VLeaf code); ("_bits", VRef bits)] in
  own_symbols p.
(** 1046-1058 *)
Definition symbol_only_new (h : heap) (data : list (list D)) (coded M fb : D) : result (heap * nat) :=
  let! p := fresh h SymbolOnly data [("_coded_symbols", VLeaf coded); ("_M", VLeaf M); ("_fb", VLeaf fb); ("_fs", VLeaf fb)] in
  own_symbols p.
(** 1231-1262; s1 and s2 are the two signals *)
Definition tdhqam_new (h : heap) (data : list (list D)) (s1 s2 : nat) (scale fr M fb power_method : D) : result (heap * nat) :=
  fresh h TDHQAM data [("_symbols_M1", VRef s1); ("_symbols_M2", VRef s2); ("_powratio", VLeaf scale); ("_fr", VLeaf fr);
                       ("_fb", VLeaf fb); ("_fs", VLeaf fb); ("_M", VLeaf M); ("_power_method", VLeaf power_method)].
(** 1494-1530; the pilots are multiplied and, like the data, repeated *)
Definition pilots_new (h : heap) (data : list (list D)) (pilots symbs : nat) (fb fs frame_len seq_len ins_rat idx_dat idx_pil scale : D) : result (heap * nat) :=
  fresh h WithPilots data [("_fb", VLeaf fb); ("_fs", VLeaf fs); ("_frame_len", VLeaf frame_len); ("_pilot_seq_len", VLeaf seq_len);
                           ("_pilot_ins_rat", VLeaf ins_rat); ("_symbols", VRef symbs); ("_pilots", VRef pilots);
                           ("_idx_dat", VLeaf idx_dat); ("_idx_pil", VLeaf idx_pil); ("_pilot_scale", VLeaf scale);
                           ("_shiftfctrs", VNone); ("_synctaps", VNone)].

(** ** resample and the class Resampled, lines 223-243 and 1167-1180, for a rate other than the own
    one: [data'] are the samples and c the class *)
Definition resample_array (h : heap) (c : cls) (o : nat) (data' : list (list D)) : result (heap * nat) :=
  let h0 := (h ++ [{| c_cls := NDArray; c_data := data'; c_attrs := [] |}]) in
  let! p := alloc h0 c data' (Some (length h)) in
  let! h1 := copy_inherits (fst p) o (snd p) in
  Ok (h1, snd p).
(** ResampledQAM: the QAM signal, line 1168, is [o]; lines 1170-1172 *)
Definition resampled_new (h : heap) (o : nat) (own_rate : bool) (data' : list (list D)) (fs : D) : result (heap * nat) :=
  match nth_error h o with
  | None => Err IndexError
  | Some c =>
      let! p := (if own_rate then derive h o (c_data c) else resample_array h Resampled o data') in
      Ok (setattr (fst p) (snd p) "_fs" (VLeaf fs), snd p)
  end.
(** the method: out._symbols = self._symbols.copy(); out._fs = fnew.  With isclose (own rate) the new
    array is a copy of the old one. *)
Definition resample (h : heap) (o : nat) (own_rate : bool) (data' : list (list D)) (fnew : D) : result (heap * nat) :=
  match nth_error h o with
  | None => Err IndexError
  | Some c =>
      let! p := (if own_rate then derive h o (c_data c) else resample_array h (c_cls c) o data') in
      let! s := getattr (fst p) o "_symbols" in
      match s with
      | VRef s =>
          match nth_error (fst p) s with
          | None => Err IndexError
          | Some sc =>
              let! q := derive (fst p) s (c_data sc) in
              Ok (setattrs (fst q) (snd p) [("_symbols", VRef (snd q)); ("_fs", VLeaf fnew)], snd p)
          end
      | VLeaf _ => Err TypeError (* reference symbols that are not a signal: not modelled *)
      | VNone => Err AttributeError
      end
  end.

(** ** sequences of operations on a signal *)
Inductive op := Derive (data : list (list D)) | Pickle | InPlace (data : list (list D)).
(** sig[:] = data, sig += ... on an array that owns its memory *)
Definition in_place (h : heap) (o : nat) (data : list (list D)) : heap :=
  update h o (fun c => {| c_cls := c_cls c; c_data := data; c_attrs := c_attrs c |}).
Definition step (p : heap * nat) (x : op) : result (heap * nat) :=
  match x with
  | Derive data => derive (fst p) (snd p) data
  | Pickle => pickle (fst p) (snd p)
  | InPlace data => Ok (in_place (fst p) (snd p) data, snd p)
  end.
Fixpoint run (p : heap * nat) (l : list op) : result (heap * nat) :=
  match l with [] => Ok p | x :: l => let! q := step p x in run q l end.
End Objects.
Arguments val D : clear implicits.
Arguments cell D : clear implicits.
Arguments heap D : clear implicits.
Arguments op D : clear implicits.
