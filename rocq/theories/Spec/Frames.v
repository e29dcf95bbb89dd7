(** Vocabulary for pilot frames. *)
From Coq Require Import List ZArith Bool.
From Verif Require Import Model.Pilots Spec.Seq.
Import ListNotations.

(** position k of a frame carries a pilot: the first [seq_len] positions and every [rat]-th one from
    there on (none if rat = 0) *)
Definition pilot_pos (seq_len rat k : nat) : Prop :=
  k < seq_len \/ (rat <> 0 /\ seq_len <= k /\ Nat.divide rat (k - seq_len)).
(** number of pilots of a frame *)
Definition n_pilots (frame_len seq_len rat : nat) : nat :=
  if rat =? 0 then seq_len else seq_len + (frame_len - seq_len) / rat.

(** frame number f of a row *)
Definition frame_of {A} (frame_len f : nat) (row : list A) : list A := firstn frame_len (skipn (f * frame_len) row).

(** every generator call returns [nmodes] rows of the requested length *)
Definition well_shaped {A} (nmodes : nat) (gen : nat -> list (list A)) : Prop :=
  forall n, length (gen n) = nmodes /\ Forall (fun r => length r = n) (gen n).

(** a well-formed signal at one sample per symbol *)
Definition mask_signal {A} (s : psig A) (N : nat) (dat pil : list bool) : Prop :=
  p_rows s <> [] /\ rect (p_rows s) N /\ p_os s = 1 /\ 0 < p_frame_len s /\
  p_idx_dat s = IMask dat /\ p_idx_pil s = IMask pil /\ length dat = p_frame_len s /\ length pil = p_frame_len s.

(** a call that passes its own payload_kwargs, or no M *)
Definition leaves_default {A} (a : fsa_args A) : Prop := a_explicit a <> None \/ a_kw_m a = None.
