(** core/processing.py 71-98, RepWorker: one request-reply worker.

    What a handler does is an oracle.  [outcome] is what the expression
    getattr(self, header.decode("ascii"))(msg) of line 90 does. *)
From Coq Require Import List Bool.
Import ListNotations.

Section Worker.
(** results, error texts (repr of the exception) and what msgpack can do with a result *)
Context {Msg Val Txt : Type} (packable : Val -> bool) (ascii : Txt -> bool).

Inductive outcome :=
| Returns (v : Val)          (* a value *)
| Raises (t : Txt)           (* an Exception with this repr *)
| RaisesBase.                (* KeyboardInterrupt, SystemExit: not caught by except Exception *)
Inductive reply := ROk (v : Val) | RErr (t : Txt).
(** a request as it comes from the socket: None if the payload cannot be unpacked *)
Definition request := option (list nat * Msg).

(** process, lines 85-94: the reply sent, if any, and whether the worker is still alive.
    - recv_msg is outside the try: a payload that cannot be unpacked ends the worker;
    - repr(err).encode("ascii") may raise, then the finally clause meets an unbound [result];
    - after a non-Exception the finally clause meets an unbound [result] too;
    - packing the result may raise in the finally clause. *)
Definition process (handler : list nat -> Msg -> outcome) (rq : request) : option reply * bool :=
  match rq with
  | None => (None, false)
  | Some (header, msg) =>
      match handler header msg with
      | Returns v => if packable v then (Some (ROk v), true) else (None, false)
      | Raises t => if ascii t then (Some (RErr t), true) else (None, false)
      | RaisesBase => (None, false)
      end
  end.

(** run, lines 96-98: replies to a sequence of requests, one slot per request *)
Fixpoint run (handler : list nat -> Msg -> outcome) (rqs : list request) : list (option reply) :=
  match rqs with
  | [] => []
  | rq :: rest =>
      let (r, alive) := process handler rq in
      r :: (if alive then run handler rest else map (fun _ => None) rest)
  end.
End Worker.
