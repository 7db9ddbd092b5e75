(** Specification vocabulary for tracers left in a graph. *)
From Coq Require Import List Arith Bool.
From Verif Require Import Base GraphModel GraphSpec ParamsModel ParamsSpec PropagateModel TracerModel.
Import ListNotations.

(* components make no tracers: what they compute belongs to the traces of their parameters and inputs *)
Definition makes_none (N : numerics) : Prop :=
  (forall c ps ins i o outs a l, nm_node N c ps ins i o = Ok outs -> In a outs -> In l a -> exists b, In b (ps ++ ins) /\ In l b) /\
  (forall c ps s a l, nm_edge N c ps s = Ok a -> In l a -> exists b, In b (s :: ps) /\ In l b) /\
  (forall c ps s l, In l (nm_gain N c ps s) -> exists b, In b (s :: ps) /\ In l b).
(* nor do evaluators that only read the saved states *)
Definition fair (ev : evaluator) : Prop :=
  match ev with
  | Reads f => forall sv a l, f sv = Ok a -> In l a -> exists p b, saved sv p = Some b /\ In l b
  | Sensitivity _ => True
  end.
Definition reading (ev : evaluator) : Prop := exists f, ev = Reads f.

(* entry k of the parameters of component i belongs to the traces a *)
Definition entry (w : world) (i k : nat) (a : mark) : Prop :=
  exists o ps, has (w_store w) i o ps /\ k < length ps /\ w_marks w (o_list o) k = a.
Definition free_entry (w : world) (i k : nat) (a : mark) : Prop :=
  exists o ps, has (w_store w) i o ps /\ k < length ps /\ w_marks w (o_list o) k = a /\ free o k.

(* no tracer in the parameters of the graph, in the saved states, in what its amplifiers remember *)
Definition plain_parameters (g : graph) (w : world) : Prop := forall i k a, used g i -> entry w i k a -> a = [].
Definition plain_states (w : world) : Prop := forall p a, saved (w_saves w) p = Some a -> a = [].
Definition plain_gains (g : graph) (w : world) : Prop :=
  forall e a, In e (g_edges g) -> ccls (e_model (e_dat e)) = OpticalAmplifier -> assoc (cid (e_model (e_dat e))) (w_gain w) = Some a -> a = [].
(* no tracer in the parameters that are not free *)
Definition plain_locked (g : graph) (w : world) : Prop :=
  forall i k a, used g i -> entry w i k a -> ~ free_entry w i k a -> a = [].
(* a tracer in every free parameter *)
Definition traced (g : graph) (w : world) : Prop := forall i k a, used g i -> free_entry w i k a -> a <> [].

(* the phase shifters of the graph have one parameter, as they are constructed (single_path.py) *)
Definition one_phase (g : graph) (w : world) : Prop :=
  forall e, In e (g_edges g) -> ccls (e_model (e_dat e)) = PhaseShifter -> exists o v, has (w_store w) (cid (e_model (e_dat e))) o [v].

(* the last simulation of a method of optimisation is one at plain numbers: all methods of
   parameters_optimize are such; PSO and GA only ask for scores *)
Definition ends_plainly (me : method) : Prop :=
  match me with
  | Null => True
  | Search calls again _ => again = true \/ exists cs, calls = cs ++ [AskFunc]
  end.
