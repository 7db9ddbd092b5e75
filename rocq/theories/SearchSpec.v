(** What C77 means.  Definitions only. *)
From Coq Require Import List Arith.
From Verif Require Import Base GraphModel GraphSpec OperatorsModel OpticsSpec PhaseSpec EvaluatorModel.
Import ListNotations.

(* no connection leads from a start straight to an end, and the connections to the ends are
   protected components of class D *)
Definition measured_by (D : cls) (g : graph) : Prop :=
  indirect g /\ forall e, ending g e -> ccls (e_model (e_dat e)) = D /\ cprot (e_model (e_dat e)) = true.
(* classes that an operator may draw for a connection *)
Definition on_offer (L : library) (c : cls) : Prop := In c (edge_models L) \/ In c (source_models L) \/ In c (sink_models L).
(* the names of waveforms that the radio frequency evaluator knows *)
Definition named (w : waveform) : Prop := w = Saw \/ w = OtherSaw \/ w = Tri \/ w = Square.
