(** io.py 77-108: a signal object from recorded samples.  [emb] embeds samples in the data of the heap; the symbols of a
    signal without pilots use recreate_from_np_array of the base class, those with pilots their own. *)
From Coq Require Import String List Arith Bool.
From Verif Require Import Common.Py Common.Cplx Model.MatIo Model.SignalObj.
Import ListNotations.
Open Scope string_scope.
Open Scope list_scope.

Definition create_signal_from_matlab {D} (emb : C -> D) (rate : D -> D -> D -> result D) (nframes : nat -> D -> D -> D -> result nat)
    (h : heap D) (o : nat) (file : matfile) (fs : D) (keys : list (list string)) (tr dim2cmplx : bool) (portmap : list (nat * nat))
  : result (heap D * nat) :=
  let! data := ndarray_from_matlab file keys tr dim2cmplx portmap in
  let h1 := (h ++ [{| c_cls := NDArray; c_data := map (map emb) data; c_attrs := [] |}]) in
  match nth_error h o with
  | None => Err IndexError
  | Some c =>
      if cls_eqb (c_cls c) WithPilots then recreate_pilots rate nframes h1 o (length h) [("fs", VLeaf fs)]
      else recreate rate h1 o (length h) [("fs", VLeaf fs)]
  end.
