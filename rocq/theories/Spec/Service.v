(** Vocabulary for a request-reply service: what the reply to a request has to be. *)
From Coq Require Import List Bool.
From Verif Require Import Model.Worker.
Import ListNotations.

(** requests the transport can carry and handlers that behave: an answer that can be sent *)
Definition wanted {Msg Val Txt} (handler : list nat -> Msg -> @outcome Val Txt) (rq : @request Msg) (r : @reply Val Txt) : Prop :=
  exists h m, rq = Some (h, m) /\
    match handler h m with Returns v => r = ROk v | Raises t => r = RErr t | RaisesBase => False end.
Definition benign {Msg Val Txt} (packable : Val -> bool) (ascii : Txt -> bool) (handler : list nat -> Msg -> @outcome Val Txt) (rq : @request Msg) : Prop :=
  exists h m, rq = Some (h, m) /\
    match handler h m with Returns v => packable v = true | Raises t => ascii t = true | RaisesBase => False end.
