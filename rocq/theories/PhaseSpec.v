(** What C71 to C73 mean.  Definitions only, independent of the model of the evaluators. *)
From Coq Require Import Reals Qreals List Arith ZArith QArith.
From Verif Require Import Base GraphModel GraphSpec OperatorsSpec EvolveSpec ParamsModel ParamsSpec PropagateSpec FlowSpec Complex ArrayModel ComponentModel ComponentSpec MoreComponentsSpec OpticsSpec.
Import ListNotations.
Local Open Scope R_scope.

(* e0 is the only phase shifter among the connections of g *)
Definition sole_shifter (g : graph) (e0 : edge) : Prop :=
  In e0 (g_edges g) /\ forall e, In e (g_edges g) -> (ccls (e_model (e_dat e)) = PhaseShifter <-> e = e0).

(* a graph that can be simulated, with one phase shifter, without amplifiers, with power
   meters on the connections to the measured end *)
Record interferometer (st : store) (p : grid) (g : graph) (e0 : edge) (sink : node) : Prop := {
  if_wf : wf g;
  if_acyclic : acyclic g;
  if_typed : typed g;
  if_distinct : distinct_objects g;
  if_furnished : furnished g st;
  if_usable : usable (n_samples p) (window_t p);
  if_bins : exists n, bin_spans (n_samples p) (window_t p) n /\ (contains g WaveShaper -> shapeable (n_samples p) n);
  if_feed : single_feed g;
  if_open : ~ blocked g st;
  if_shifter : sole_shifter g e0;
  if_linear : ~ contains g OpticalAmplifier;
  if_end : no_output g sink;
  if_reached : ~ no_input g sink;
  if_power : forall e, In e (g_edges g) -> e_dst e = sink -> ccls (e_model (e_dat e)) = MeasurementDevice }.

(* the reading is an interference fringe: never negative, of period 2 pi, with one maximum
   and one minimum per period *)
Definition fringe (f : R -> res R) : Prop := exists a b c, 0 <= a /\ b * b + c * c <= a * a /\ forall x, f x = Ok (a + b * cos x + c * sin x).

(* light reaches the places behind the connection e0 only through e0 *)
Definition confined (g : graph) (e0 : edge) : Prop :=
  forall e, In e (g_edges g) -> e <> e0 -> ~ no_output g (e_dst e) -> path g (e_dst e0) (e_dst e) -> path g (e_dst e0) (e_src e).

(* the values that the components of a graph read *)
Definition same_values (g : graph) (s s' : store) : Prop := forall c, In c (components g) -> get_params s' (cid c) = get_params s (cid c).

(* no connection leads from a start straight to an end *)
Definition indirect (g : graph) : Prop := forall e, In e (g_edges g) -> no_input g (e_src e) -> ~ no_output g (e_dst e).
(* a start graph for phase measurements: its phase shifters and detectors may not be
   changed, the detectors are power meters *)
Definition metered (g : graph) : Prop := indirect g /\ forall e, ending g e -> ccls (e_model (e_dat e)) = MeasurementDevice /\ cprot (e_model (e_dat e)) = true.
