(** What C96 means: two neighbouring components that act like one.  Definitions only. *)
From Coq Require Import List Arith QArith.
From Verif Require Import Base GraphModel GraphSpec ParamsModel ParamsSpec.
Import ListNotations.
Local Open Scope nat_scope.

(* the values that the object on a component holds *)
Definition holds (s : store) (c : comp) (ps : list pval) : Prop := exists o, has s (cid c) o ps.
(* the first of them is the number v *)
Definition set_to (s : store) (c : comp) (v : Q) : Prop := exists ps, holds s c ps /\ nth_error ps 0 = Some (Num v).

(* a single number: the length of a fibre, the delay of a delay line, the phase of a phase shifter,
   the decibels of an attenuator *)
Definition one_number (c : cls) : Prop := c = DispersiveFiber \/ c = DelayLine \/ c = IntegratedDelayLine \/ c = PhaseShifter \/ c = VariableOpticalAttenuator.

(* the connection e leads into f through a power splitter at which no other connection begins or ends *)
Definition in_series (g : graph) (e f : edge) : Prop :=
  In e (g_edges g) /\ In f (g_edges g) /\ e_dst e = e_src f /\
  (forall d, In d (g_edges g) -> e_dst d = e_dst e -> d = e) /\
  (forall d, In d (g_edges g) -> e_src d = e_src f -> d = f) /\
  exists c, model_at g (e_dst e) c /\ ccls c = VariablePowerSplitter.

(* the two settings differ at most in the components of e and f *)
Definition same_but (g : graph) (s s' : store) (e f : edge) : Prop :=
  forall c, In c (components g) -> c <> e_model (e_dat e) -> c <> e_model (e_dat f) -> forall ps, holds s c ps <-> holds s' c ps.
