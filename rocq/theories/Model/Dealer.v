(** core/processing.py 29-69 and 103-129: the packing helpers, PPWorker, and DataDealer talking to a
    RepWorker.  A message is a list of frames.  zmq delivers messages unchanged, in order; a REP socket
    keeps the frames up to and including the first empty one and puts them in front of the reply, and
    drops a message without an empty frame. *)
From Coq Require Import List Bool Arith String.
From Verif Require Import Common.Py.
Import ListNotations.
Local Open Scope string_scope.

Section Dealer.
(** values, and msgpack: packing into a byte string, unpacking *)
Context {Val : Type} (pack : Val -> string) (unpack : string -> result Val).

(** lines 113-119, DataDealer.send_msg *)
Definition dealer_send (header : string) (msg : Val) (identity : option string) : list string :=
  match identity with
  | None => [""; header; pack msg]
  | Some i => [i; ""; header; pack msg]
  end.
(** the REP socket: the frames kept as envelope, and the rest *)
Fixpoint rep_split (m : list string) : option (list string * list string) :=
  match m with
  | [] => None
  | f :: m' => if f =? "" then Some ([f], m')
               else match rep_split m' with Some (e, b) => Some (f :: e, b) | None => None end
  end.
(** lines 78-83: RepWorker.recv_msg and send_msg *)
Definition worker_recv (body : list string) : result (string * Val) :=
  match body with [h; m] => let! v := unpack m in Ok (h, v) | _ => Err ValueError end.
Definition worker_send (success : string) (v : Val) : list string := [success; pack v].

(** what a dealer gets from a call *)
Inductive received := Value (v : Val) | Nothing | Failure (m : list string).
(** lines 121-129, DataDealer.recv_msg *)
Definition dealer_recv (m : list string) : result received :=
  let! f0 := getn m 0 in
  if f0 =? "" then
    let! f1 := getn m 1 in
    if f1 =? "OK" then let! f2 := getn m 2 in let! v := unpack f2 in Ok (Value v) else Ok (Failure m)
  else Ok Nothing.

(** one request and its reply, for a worker whose method called header returns [Ok v] or raises an
    exception with the (ASCII) text [Err t]; [text] is the byte string as value *)
Definition call (method : string -> Val -> Val + Val) (header : string) (msg : Val) (identity : option string)
  : result received :=
  match rep_split (dealer_send header msg identity) with
  | None => Err IOError
  | Some (envelope, body) =>
      let! q := worker_recv body in
      let reply := match method (fst q) (snd q) with inl v => worker_send "OK" v | inr t => worker_send "ERR" t end in
      dealer_recv (envelope ++ reply)
  end.

(** lines 41-69, PPWorker: there is no collect_socket, and send_msg uses the name A *)
Definition pp_recv_msg (queue : list (list string)) : result (string * Val) := Err AttributeError.
Definition pp_send_msg (msg : Val) (success : string) : result (list string) := Err NameError.
Definition pp_process (queue : list (list string)) : result (list string) :=
  let! q := pp_recv_msg queue in pp_send_msg (snd q) "OK".
End Dealer.
