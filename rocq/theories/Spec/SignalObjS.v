(** What a user of a signal object can see of it. *)
From Coq Require Import String List.
From Verif Require Import Common.Py Model.SignalObj.
Import ListNotations.
Open Scope string_scope.
Open Scope list_scope.

(** attributes named in the class documentation, by the name they are stored under *)
Definition documented (c : cls) : list string :=
  match c with
  | QAM | PSK | FromBERT | Resampled => ["_fb"; "_fs"; "_M"; "_coded_symbols"; "_bits"; "_symbols"]
  | SymbolOnly => ["_fb"; "_fs"; "_M"; "_coded_symbols"; "_symbols"]
  | TDHQAM => ["_fb"; "_fs"; "_M"; "_fr"; "_powratio"; "_symbols_M1"; "_symbols_M2"]
  | WithPilots => ["_fb"; "_fs"; "_symbols"; "_pilots"; "_frame_len"; "_pilot_seq_len"; "_pilot_ins_rat"; "_pilot_scale";
                   "_idx_dat"; "_idx_pil"; "_shiftfctrs"; "_synctaps"; "_foe"]
  | NDArray | RandomBits | PRBSBits => []
  end.
(** the other attributes that methods of the class use *)
Definition used (c : cls) : list string :=
  match c with
  | QAM | PSK | FromBERT | Resampled => ["_encoding"; "_bitmap_mtx"; "_code"]
  | WithPilots => ["_M"; "_nframes"]
  | _ => []
  end.
Definition attributes (c : cls) : list string := documented c ++ used c.

Section Objects.
Context {D : Type}.
(** what an access path like signal.symbols.bits shows: nothing, a plain value, or the class and the
    samples of an array *)
Inductive seen := SNone | SLeaf (x : D) | SArray (c : cls) (data : list (list D)).
Fixpoint observe (h : heap D) (o : nat) (path : list string) : option seen :=
  match nth_error h o with
  | None => None
  | Some c =>
      match path with
      | [] => Some (SArray (c_cls c) (c_data c))
      | a :: path =>
          if in_dec string_dec a (attributes (c_cls c)) then
            match lookup a (c_attrs c), path with
            | Some (VRef r), _ => observe h r path
            | Some VNone, [] => Some SNone
            | Some (VLeaf x), [] => Some (SLeaf x)
            | _, _ => None
            end
          else None
      end
  end.
Definition class_of (h : heap D) (o : nat) : option cls := option_map c_cls (nth_error h o).
Definition samples_of (h : heap D) (o : nat) : option (list (list D)) := option_map c_data (nth_error h o).
Definition attr (h : heap D) (o : nat) (a : string) : option (val D) :=
  match nth_error h o with None => None | Some c => lookup a (c_attrs c) end.

(** heaps of fully constructed objects: references are valid, every signal has all its attributes,
    reference symbols that exist are not None, those of a signal with pilots have no pilots themselves *)
Definition cell_ok (n : nat) (c : cell D) : Prop :=
  (forall a o, lookup a (c_attrs c) = Some (VRef o) -> o < n) /\
  (forall a, In a (attributes (c_cls c)) -> lookup a (c_attrs c) <> None) /\
  lookup "_symbols" (c_attrs c) <> Some VNone.
Definition pilots_ok (h : heap D) (c : cell D) : Prop :=
  c_cls c = WithPilots -> forall s d, lookup "_symbols" (c_attrs c) = Some (VRef s) -> nth_error h s = Some d -> c_cls d <> WithPilots.
Definition heap_ok (h : heap D) : Prop := forall o c, nth_error h o = Some c -> cell_ok (length h) c /\ pilots_ok h c.
(** no attribute of the object is the object *)
Definition no_self (h : heap D) (o : nat) : Prop := forall a, attr h o a <> Some (VRef o).
End Objects.
Arguments seen D : clear implicits.
