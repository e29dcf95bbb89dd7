(** Property C144: signal objects from recorded MATLAB files. *)
From Coq Require Import String List Arith Bool Reals Lia.
From Verif Require Import Common.Py Common.Cplx Model.MatIo Model.SignalObj Model.MatSignal Spec.SignalObjS Proofs.MatSignalP.
Import ListNotations.
Open Scope string_scope.
Open Scope list_scope.

(** C144: the object has the class and attributes of the transmitted symbols, the samples of the file and the given
    sampling rate; no existing object changes. *)
Theorem C144_signal : forall (D : Type) (emb : C -> D) rate nframes (h : heap D) o c file fs keys tr dc pm data,
  heap_ok h -> is_signal c = true -> c <> WithPilots -> class_of h o = Some c ->
  ndarray_from_matlab file keys tr dc pm = Ok data ->
  exists h', create_signal_from_matlab emb rate nframes h o file fs keys tr dc pm = Ok (h', S (length h)) /\
    class_of h' (S (length h)) = Some c /\ samples_of h' (S (length h)) = Some (map (map emb) data) /\ attr h' (S (length h)) "_fs" = Some (VLeaf fs) /\
    (forall k, In (append "_" k) (attributes c) -> k <> "fs" -> attr h' (S (length h)) (append "_" k) = attr h o (append "_" k)) /\
    forall i, i < length h -> nth_error h' i = nth_error h i.
Proof. exact @mat_signal. Qed.
Print Assumptions C144_signal.
(** with pilots: the record must hold at least one frame *)
Theorem C144_pilots : forall (D : Type) (emb : C -> D) rate nframes (h : heap D) o file fs fb fl n keys tr dc pm data,
  heap_ok h -> class_of h o = Some WithPilots -> attr h o "_fb" = Some (VLeaf fb) -> attr h o "_frame_len" = Some (VLeaf fl) ->
  ndarray_from_matlab file keys tr dc pm = Ok data -> nframes (length (hd [] data)) fs fb fl = Ok n ->
  (n = 0 -> create_signal_from_matlab emb rate nframes h o file fs keys tr dc pm = Err AssertionError) /\
  (0 < n -> exists h', create_signal_from_matlab emb rate nframes h o file fs keys tr dc pm = Ok (h', S (length h)) /\
    class_of h' (S (length h)) = Some WithPilots /\ samples_of h' (S (length h)) = Some (map (map emb) data) /\ attr h' (S (length h)) "_fs" = Some (VLeaf fs) /\
    (forall k, In (append "_" k) (attributes WithPilots) -> k <> "fs" -> attr h' (S (length h)) (append "_" k) = attr h o (append "_" k)) /\
    forall i, i < length h -> nth_error h' i = nth_error h i).
Proof. exact @mat_signal_pilots. Qed.
Print Assumptions C144_pilots.
Theorem C144_error : forall (D : Type) (emb : C -> D) rate nframes (h : heap D) o file fs keys tr dc pm e,
  ndarray_from_matlab file keys tr dc pm = Err e -> create_signal_from_matlab emb rate nframes h o file fs keys tr dc pm = Err e.
Proof. exact @mat_signal_error. Qed.
Print Assumptions C144_error.
Example C144_ex : forall x y : C,
  (let! b := random_bits [] [[inr 1; inr 0]] (inr 7) VNone in
   let! s := qam_new (fst b) QAM [[inr 20; inr 30]] (snd b) (inr 91) (inr 92) (inr 93) (inr 4) (inr 10) (inr 94) in
   let! r := create_signal_from_matlab inl (fun _ _ _ => Err TypeError) (fun _ _ _ _ => Err TypeError) (fst s) (snd s)
               [("rec", [[x; y; x; y]])] (inr 20) [["rec"]] false false [] in
   Ok (samples_of (fst r) (snd r), map (fun a => observe (fst r) (snd r) [a]) ["_fb"; "_fs"; "_M"; "_symbols"]))
  = Ok (Some [[inl x; inl y; inl x; inl y]], [Some (SLeaf (inr 10)); Some (SLeaf (inr 20)); Some (SLeaf (inr 4)); Some (SArray QAM [[inr 20; inr 30]])]).
Proof. intros x y. vm_compute. reflexivity. Qed.
