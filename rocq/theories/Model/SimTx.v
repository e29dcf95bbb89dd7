(** core/pilotbased_transmitter.py: sim_tx (lines 188-237) without the quantisation options
    (resBits_tx = resBits_rx = None), and the frame generators (lines 17-186).
    [num_frames] and [beta] are not used by the code.  The random draws are arguments. *)
From Coq Require Import List ZArith Bool Arith Reals.
From Verif Require Import Common.Py Common.Cplx Model.Helpers Model.Phase Model.Impair Model.Transmitter Model.MatIo.
Import ListNotations.
Local Open Scope R_scope.

Record tx_options := TxOptions {
  tx_os : R; tx_delay : option (list Z); tx_snr : option R; tx_symb_rate : R;
  tx_freqoff : option R; tx_linewidth : option R; tx_rot : option R }.
(** per mode: the real and imaginary normal draws of the noise and those of the phase noise *)
Definition tx_draws := nat -> list R * list R * list R.

Definition opt_app {A B} (o : option A) (f : A -> B -> B) (x : B) : B := match o with Some a => f a x | None => x end.

(** lines 217-228: noise, frequency offset and phase noise of the row of one mode *)
Definition tx_row (o : tx_options) (dr : list R * list R * list R) (row : list C) : list C :=
  let fs := tx_symb_rate o * tx_os o in
  let row := opt_app (tx_snr o) (fun snr row =>
    awgn_row (Rpower 10 (- snr / 20) * sqrt (tx_os o)) (row, (fst (fst dr), snd (fst dr)))) row in
  let row := opt_app (tx_freqoff o) (fun f row =>
    map (fun p => (snd p * Cexpi (2 * PI * INR (fst p) * f / fs))%C) (combine (seq 0 (length row)) row)) row in
  opt_app (tx_linewidth o) (fun df row =>
    map (fun p => (fst p * Cexpi (snd p))%C)
        (combine row (rcumsum 0 (map (fun x => sqrt (2 * PI * df / fs) * x) (snd dr))))) row.

(** sig[l, :] = ... *)
Definition set_mode (l : nat) (f : list C -> list C) (sig : list (list C)) : list (list C) :=
  map (fun p => if (fst p =? l)%nat then f (snd p) else snd p) (combine (seq 0 (length sig)) sig).

(** lines 205-208: the whole array is rolled *)
Definition tx_delayed (o : tx_options) (npols l : nat) (sig : list (list C)) : result (list (list C)) :=
  match tx_delay o with
  | None => Ok sig
  | Some ds => if (length ds =? npols)%nat then let! d := getn ds l in Ok (roll_flat d sig) else Err ValueError
  end.

(** lines 200-231, the loop; the state is the array, None once it contains nan *)
Fixpoint tx_loop (o : tx_options) (dr : tx_draws) (npols : nat) (ls : list nat) (sig : option (list (list C)))
  : result (option (list (list C))) :=
  match ls with
  | [] => Ok sig
  | l :: ls' =>
      match sig with
      | None => Ok None
      | Some sig =>
          let! sig := tx_delayed o npols l sig in
          tx_loop o dr npols ls' (no_nan (normalise_and_center (set_mode l (tx_row o (dr l)) sig)))
      end
  end.

(** lines 188-237.  The second component is the content of the argument afterwards: without a delay
    [sig] is the argument itself until it is first replaced on line 231, after the first mode.
    core/utils.py has no rotate_field, so line 235 raises AttributeError. *)
Definition sim_tx (frame : list (list C)) (o : tx_options) (dr : tx_draws)
  : result (option (list (list C)) * list (list C)) :=
  let npols := length frame in
  let! sig := tx_loop o dr npols (seq 0 npols) (Some frame) in
  let after := match tx_delay o with None => set_mode 0 (tx_row o (dr 0%nat)) frame | Some _ => frame end in
  match tx_rot o with
  | Some _ => if (npols =? 2)%nat then Err AttributeError else Ok (sig, after)
  | None => Ok (sig, after)
  end.

(** lines 17-64 and 67-104: the first statement uses the name modulation, which is not imported *)
Definition gen_dataframe_with_phasepilots (M npols frame_length pilot_seq_len pilot_ins_ratio : Z)
  : result (list (list C) * list (list C) * list (list C)) := Err NameError.
Definition gen_dataframe_without_phasepilots (M npols frame_length pilot_seq_len : Z)
  : result (list (list C) * list (list C) * list (list C)) := Err NameError.
(** lines 107-120 *)
Definition gen_dataframe_hybrid (M mod_ratio : list Z) (npols frame_length pilot_seq_len pilot_ins_ratio : Z)
  : result (list (list C) * list (list C) * list (list C)) :=
  if negb (length M =? length mod_ratio)%nat then Err ValueError
  else if (pilot_ins_ratio =? 0)%Z then Err ZeroDivisionError
  else Err NameError.
