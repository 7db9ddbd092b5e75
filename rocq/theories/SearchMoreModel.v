(** Two more searches that scripts start: scripts/run_pulse_rep.py and scripts/run_better_awg.py.  Definitions only.
    Names of nodes as in SearchModel. *)
From Coq Require Import Reals List Arith.
From Verif Require Import Base GraphModel OperatorsModel Complex ArrayModel EvaluatorModel SearchModel.
Import ListNotations.
Local Open Scope R_scope.

(* run_pulse_rep.py:54-85: 2**15 samples in 4 ns; the laser and the detector are protected.  Simplification: the script locks the laser at a
   width and a period below its bounds; here it starts, as any laser, with its defaults and sessions may change it within its bounds *)
Definition pulse_samples : nat := Nat.pow 2 15.
Definition pulse_grid : grid := mkGrid pulse_samples (4 * / 10 ^ 9) (155 / 10 ^ 8).
Definition pulse_edges : list (eid * comp) := [((0, 1, 0)%nat, mkComp 104 PulsedLaser true); ((1, 2, 0)%nat, mkComp 105 MeasurementDevice true)].
Definition pulse_rep_t : R := 1 / (10 * 10 ^ 9).

(* run_better_awg.py:46,95-111: 2**14 samples in 20 ns, nodes and edges of the search for radio frequency waveforms, harmonic 1 GHz, the target is an array
   and the amplitude None.  The script also raises the smallest frequency of phase modulators from 1 to 2 GHz; here it stays at 1 GHz, which
   allows all the values of the script and more *)
Definition better_window : R := 20 * / 10 ^ 9.
Definition better_harmonic : R := 10 ^ 9.

(* evaluator_rfawg.py:16-53 and 74-97 with target_amplitude None: the constructor only stores it (the target is an array), None ** 2 raises *)
Definition better_score (p : grid) (harmonic : R) (target state : list C) : res (option C) :=
  do e <- radio_waveform_init p harmonic 0 (Samples target);
  do shifted <- radio_shift e p state;
  match shifted with
  | None => Err TypeError
  | Some s => do _ <- broadcast (fun a b => Cmul (Csub a b) (Csub a b)) s (rw_target e); Err TypeError
  end.
