(** The searches that the scripts start: their graphs, libraries and grids.  Definitions only.
    The node names 'source', 0, 1, 'sink' are the numbers 0, 1, 2, 3 (without the node 1 of the
    scripts: 'source', 0, 'sink' are 0, 1, 2).  The third entry of the
    name of an edge is not used (lib/graph.py:40); some scripts leave it out.  Numbers of components are arbitrary. *)
From Coq Require Import Reals List Arith.
From Verif Require Import Base GraphModel OperatorsModel ArrayModel NoiseModel ComponentModel.
Import ListNotations.
Local Open Scope nat_scope.

(* Propagator(window_t, n_samples=2**14, central_wl=1.55e-6) *)
Definition script_samples : nat := Nat.pow 2 14.
Definition script_grid (window : R) : grid := mkGrid script_samples window (155 / 10 ^ 8)%R.

(* the terminals and one or two splitters *)
Definition three_nodes : list (node * comp) := [(0, mkComp 100 TerminalSource false); (1, mkComp 101 VariablePowerSplitter false); (2, mkComp 102 TerminalSink false)].
Definition four_nodes : list (node * comp) :=
  [(0, mkComp 100 TerminalSource false); (1, mkComp 101 VariablePowerSplitter false); (2, mkComp 102 VariablePowerSplitter false); (3, mkComp 103 TerminalSink false)].

(* scripts/run_rfawg.py:54-67; scripts/batch_rfawg.py:46-66 with scripts/setups/setup_rfawg.py.
   Windows of 2 and of 1 nanosecond; the libraries are those of the decorators *)
Definition radio_window : R := 2 * / 10 ^ 9.
Definition batch_window : R := / 10 ^ 9.
Definition radio_edges : list (eid * comp) := [((0, 1, 0), mkComp 104 ContinuousWaveLaser false); ((1, 2, 0), mkComp 105 Photodiode true)].
Definition radio_harmonic : R := 12 * 10 ^ 9.
Definition radio_amplitude : R := 2 / 100.

(* scripts/run_filter_design.py:54-80: the classes are protected as a whole, noise is off *)
Definition filter_window : R := 10 * / 10 ^ 9.
Definition filter_edges : list (eid * comp) :=
  [((0, 1, 0), mkComp 104 Impulse true); ((1, 2, 0), mkComp 105 Waveguide false); ((2, 3, 0), mkComp 106 ElectricFieldMeasurementDevice true)].
Definition filter_classes : list cls := [VariablePowerSplitter; IntegratedDelayLine; PhaseShifter].

(* scripts/run_noise_suppresion.py:54-100, system 1 *)
Definition suppression_window : R := 10 * / 10 ^ 9.
Definition suppression_edges : list (eid * comp) := [((0, 1, 0), mkComp 104 NoisySignal true); ((1, 2, 0), mkComp 105 ElectricFieldMeasurementDevice true)].
Definition suppression_classes : list cls := [VariablePowerSplitter; PhaseShifter; IntegratedDelayLine].
