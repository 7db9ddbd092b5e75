(** Specification vocabulary for the evolution operators. *)
From Coq Require Import List Arith Permutation.
From Verif Require Import GraphModel GraphSpec OperatorsModel.
Import ListNotations.

(* a component library: classes are listed once, in the right family *)
Record lib_ok (L : library) : Prop := {
  lib_source : forall c, In c (source_models L) -> family_of c = SourceModel;
  lib_sink : forall c, In c (sink_models L) -> family_of c = SinkModel;
  lib_edge : forall c, In c (edge_models L) -> family_of c = SinglePath;
  lib_node : forall c, In c (node_models L) -> family_of c = MultiPath;
  lib_source_nd : NoDup (source_models L);
  lib_sink_nd : NoDup (sink_models L);
  lib_edge_nd : NoDup (edge_models L);
  lib_node_nd : NoDup (node_models L) }.

(* renaming node v to u *)
Definition merge (u v n : node) : node := if Nat.eqb n v then u else n.

(* component families where they belong *)
Record typed (g : graph) : Prop := {
  ty_source : forall n c, no_input g n -> model_at g n c -> ccls c = TerminalSource;
  ty_sink : forall n c, ~ no_input g n -> no_output g n -> model_at g n c -> ccls c = TerminalSink;
  ty_inner : forall n c, inner g n -> model_at g n c -> family_of (ccls c) = MultiPath;
  ty_edge_source : forall e, In e (g_edges g) -> no_input g (e_src e) ->
      family_of (ccls (e_model (e_dat e))) = SourceModel;
  ty_edge_sink : forall e, In e (g_edges g) -> ~ no_input g (e_src e) -> no_output g (e_dst e) ->
      family_of (ccls (e_model (e_dat e))) = SinkModel;
  ty_edge_inner : forall e, In e (g_edges g) -> ~ no_input g (e_src e) -> ~ no_output g (e_dst e) ->
      family_of (ccls (e_model (e_dat e))) = SinglePath }.

(* inner nodes respect the connector's port maxima *)
Definition within_ports (g : graph) : Prop :=
  forall n c, inner g n -> model_at g n c ->
    arrivals g n <= max_inputs (ccls c) /\ departures g n <= max_outputs (ccls c).
