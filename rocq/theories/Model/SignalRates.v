(** Rates of signal objects: signals.py 180-181, 212-213, 1677.  Leaf values are rational numbers or
    anything else. *)
From Coq Require Import ZArith QArith Qround.
From Verif Require Import Common.Py.
Local Open Scope Q_scope.

(** int(x) *)
Definition truncQ (x : Q) : Z := Z.quot (Qnum x) (QDen x).
(** int(fs/fb) *)
Definition os_of (fs fb : Q) : result Z := if Qeq_bool fb 0 then Err ZeroDivisionError else Ok (truncQ (fs / fb)).
(** self.os * kwargs["fb"] *)
Definition os_rate {X} (fs fb fb' : Q + X) : result (Q + X) :=
  match fs, fb, fb' with
  | inl fs, inl fb, inl fb' => let! os := os_of fs fb in Ok (inl (inject_Z os * fb'))
  | _, _, _ => Err TypeError
  end.
(** shape[-1]//(self.os*self.frame_len); a negative number of frames fails the assertion like zero *)
Definition frames_of {X} (n : nat) (fs fb fl : Q + X) : result nat :=
  match fs, fb, fl with
  | inl fs, inl fb, inl fl =>
      let! os := os_of fs fb in
      if Qeq_bool (inject_Z os * fl) 0 then Err ZeroDivisionError
      else Ok (Z.to_nat (Qfloor (inject_Z (Z.of_nat n) / (inject_Z os * fl))))
  | _, _, _ => Err TypeError
  end.
