(** Property C131: requests from a DataDealer to a RepWorker, and PPWorker. *)
From Coq Require Import String List Bool.
From Verif Require Import Common.Py Model.Dealer Proofs.DealerP.
Import ListNotations.
Local Open Scope string_scope.

(** C131.  Full statement: recv_msg after send_msg returns the value of the worker's method, or raises an
    exception with its error, with and without an identity; a PPWorker answers requests. *)
Theorem C131_value_partial : forall (Val : Type) (pack : Val -> string) unpack method h m v, (forall x, unpack (pack x) = Ok x) ->
  method h m = inl v -> call pack unpack method h m None = Ok (Value v).
Proof. exact @dealer_value. Qed.
Print Assumptions C131_value_partial.
Theorem C131_error_partial : forall (Val : Type) (pack : Val -> string) unpack method h m t, (forall x, unpack (pack x) = Ok x) ->
  method h m = inr t -> call pack unpack method h m None = Ok (Failure [""; "ERR"; pack t]).
Proof. exact @dealer_error. Qed.
Print Assumptions C131_error_partial.
(** with an identity the reply comes back behind it and is dropped; an empty one ends the worker *)
Theorem C131_identity_refuted : forall (Val : Type) (pack : Val -> string) unpack method h m i, (forall x, unpack (pack x) = Ok x) ->
  i <> "" -> call pack unpack method h m (Some i) = Ok Nothing.
Proof. exact @dealer_identity_lost. Qed.
Print Assumptions C131_identity_refuted.
Theorem C131_empty_identity_refuted : forall (Val : Type) (pack : Val -> string) unpack method h m, call pack unpack method h m (Some "") = Err ValueError.
Proof. exact @dealer_identity_empty. Qed.
Print Assumptions C131_empty_identity_refuted.
Theorem C131_ppworker_refuted : forall (Val : Type) (q : list (list string)), pp_process (Val := Val) q = Err AttributeError.
Proof. exact @pp_never. Qed.
Print Assumptions C131_ppworker_refuted.

Example C131_case : let method := fun h m => if h =? "rev" then inl ("x" ++ m) else inr "unknown" in
  call (fun s => s) (@Ok string) method "rev" "abc" None = Ok (Value "xabc") /\
  call (fun s => s) (@Ok string) method "other" "abc" None = Ok (Failure [""; "ERR"; "unknown"]) /\
  call (fun s => s) (@Ok string) method "rev" "abc" (Some "id") = Ok Nothing.
Proof. repeat split; reflexivity. Qed.
