(** Vocabulary for the equaliser theorems. *)
From Coq Require Import String List Arith ZArith Reals.
From Verif Require Import Common.Cplx Common.SumX Spec.Seq.
Import ListNotations.

(** entry (k, i) of an array of rows; theorems that use it also say that the entry exists *)
Definition cell {K} (d : K) (X : list (list K)) (k i : nat) : K := nth i (nth k X []) d.
(** p rows of n entries *)
Definition shape {K} (X : list (list K)) (p n : nat) : Prop := length X = p /\ rect X n.
(** taps for m modes, p polarisations and t taps *)
Definition shape3 {K} (w : list (list (list K))) (m p t : nat) : Prop :=
  length w = m /\ Forall (fun x => shape x p t) w.

(** the inner product of the window of ntaps samples from sample s on with the taps w *)
Definition fir (E w : list (list C)) (ntaps s : nat) : C :=
  csum (length E) (fun p => csum ntaps (fun k => (cell C0 E p (s + k) * cell C0 w p k)%C)).
Definition fir_real (E w : list (list R)) (ntaps s : nat) : R :=
  rsum (length E) (fun p => rsum ntaps (fun k => (cell 0 E p (s + k) * cell 0 w p k)%R)).

(** the selected modes: all of them by default *)
Definition sel_modes (modes : option (list nat)) (nw : nat) : list nat :=
  match modes with None => seq 0 nw | Some m => m end.

(** [sched] is an execution of one copy of [prog] for every mode in [modes], in any interleaving *)
Definition interleaving {A} (modes : list nat) (prog : list A) (sched : list (nat * A)) : Prop :=
  NoDup modes /\
  (forall m, In m modes -> filter (fun e => fst e =? m) sched = map (pair m) prog) /\
  (forall e, In e sched -> In (fst e) modes).

Local Open Scope R_scope.
(** c is the member of [codes] nearest to x *)
Definition nearest_code (codes : R -> Prop) (x c : R) : Prop :=
  codes c /\ forall c', codes c' -> Rabs (c - x) <= Rabs (c' - x).
(** s is a member of the alphabet nearest to x *)
Definition nearest_symbol (al : list C) (x s : C) : Prop :=
  In s al /\ forall s', In s' al -> Cabs (x - s)%C <= Cabs (x - s')%C.

(** the error terms of the literature; [s] is the decided or known symbol, [r] a target *)
Definition err_cma (r : R) (x : C) : C := Cscal (r - Cnorm2 x) x.
Definition err_mcma (r : C) (x : C) : C := ((Re r - Re x * Re x) * Re x, (Im r - Im x * Im x) * Im x).
Definition err_cma2 (r : C) (x : C) : C := ((r - x * x) * x)%C.
Definition err_sbd (s x : C) : C := ((Re s - Re x) * Rabs (Re s), (Im s - Im x) * Rabs (Im s)).
Definition err_mddma (s x : C) : C :=
  ((Re s * Re s - Re x * Re x) * Re x, (Im s * Im s - Im x * Im x) * Im x).
Definition err_dd (s x : C) : C := (s - x)%C.
(** s is -1, 0 or 1 with the sign of x *)
Definition is_sign (x s : R) : Prop :=
  (0 < x /\ s = 1) \/ (x < 0 /\ s = -1) \/ (x = 0 /\ s = 0).

(** the kinds of methods named in the user documentation *)
Definition data_aided (m : string) : Prop := m = "sbd_data"%string \/ m = "dd_data_real"%string.
Definition blind (m : string) : Prop :=
  In m ["cma"; "cma2"; "mcma"; "rde"; "mrde"; "cma_real"; "sgncma_real"; "sgncma"]%string.
Definition decision_directed (m : string) : Prop := In m ["sbd"; "mddma"; "dd"; "dd_real"]%string.
Definition real_valued (m : string) : Prop :=
  In m ["cma_real"; "dd_real"; "dd_data_real"; "sgncma_real"]%string.
(** the references a method needs: the sent sequence [sy], the alphabet [co] or nothing *)
Definition needs {A} (m : string) (sy co : A) (r : option A) : Prop :=
  (data_aided m /\ r = Some sy) \/ (decision_directed m /\ r = Some co) \/ (blind m /\ r = None).
(** energy of the window of ntaps samples from sample s on *)
Definition window_energy (E : list (list C)) (ntaps s : nat) : R :=
  rsum (length E) (fun p => rsum ntaps (fun k => Cnorm2 (cell C0 E p (s + k)))).
Definition window_energy_real (E : list (list R)) (ntaps s : nat) : R :=
  rsum (length E) (fun p => rsum ntaps (fun k => cell 0 E p (s + k) * cell 0 E p (s + k))).
