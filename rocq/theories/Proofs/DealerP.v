(** Requests of a DataDealer to a RepWorker *)
From Coq Require Import String List Bool.
From Verif Require Import Common.Py Model.Dealer.
Import ListNotations.
Local Open Scope string_scope.

Lemma dealer_value {Val} (pack : Val -> string) unpack method h m v : (forall x, unpack (pack x) = Ok x) ->
  method h m = inl v -> call pack unpack method h m None = Ok (Value v).
Proof. intros H M. cbn. rewrite H. cbn. rewrite M. cbn. rewrite H. reflexivity. Qed.
Lemma dealer_error {Val} (pack : Val -> string) unpack method h m t : (forall x, unpack (pack x) = Ok x) ->
  method h m = inr t -> call pack unpack method h m None = Ok (Failure [""; "ERR"; pack t]).
Proof. intros H M. cbn. rewrite H. cbn. rewrite M. reflexivity. Qed.
Lemma dealer_identity_lost {Val} (pack : Val -> string) unpack method h m i : (forall x, unpack (pack x) = Ok x) ->
  i <> "" -> call pack unpack method h m (Some i) = Ok Nothing.
Proof.
  intros H Hi. unfold call, dealer_send. cbn [rep_split]. destruct (String.eqb_spec i ""); [contradiction|].
  change ("" =? "") with true. cbv iota. cbn [app]. unfold worker_recv. rewrite H. cbn [bind fst snd].
  unfold dealer_recv. cbn [getn nth_error bind]. destruct (String.eqb_spec i ""); [contradiction|reflexivity].
Qed.
Lemma dealer_identity_empty {Val} (pack : Val -> string) unpack method h m : call pack unpack method h m (Some "") = Err ValueError.
Proof. reflexivity. Qed.
Lemma pp_never {Val} (q : list (list string)) : pp_process (Val := Val) q = Err AttributeError.
Proof. reflexivity. Qed.
