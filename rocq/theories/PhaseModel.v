(** The phase sensitivity evaluators,
    /repo/simulator/fiber/evaluator_subclasses/evaluator_phase_sensitivity.py.
    Definitions only.
    The phase models are phase shifters, as in the scripts
    (/repo/scripts/run_phase_sensitivity.py:60-82): type(phase_model) = PhaseShifter.
    autograd's grad is modelled by the relation [differentiates]: the exact
    derivative.  The detected array is real, as behind a MeasurementDevice; for a
    complex one autograd raises a TypeError, which is not modelled.  Noise is off, as
    in OpticsModel.v.  Where an exception leaves an autograd box in the parameters, the
    model has the number in the box. *)
From Coq Require Import Reals Qreals List Arith ZArith QArith Bool.
From Verif Require Import Base GraphModel ParamsModel PropagateModel Complex ArrayModel ComponentModel OpticsModel.
Import ListNotations.
Local Open Scope R_scope.

(* lines 32, 79: the edge components of the class of the phase model.  The order is that
   of graph.edges; only the length and the single element are used *)
Definition phase_models (g : graph) : list comp :=
  filter (fun c => cls_eqb (ccls c) PhaseShifter) (map (fun e => e_model (e_dat e)) (g_edges g)).

(* model.parameters = vs with a new list: lines 25, 45, 71-72, 109-110 *)
Definition assign_parameters (s : store) (i : nat) (vs : list pval) : res store :=
  let l := fresh_key (s_lists s) in set_param_list (mkStore (s_objs s) (s_lists s ++ [(l, vs)])) i l.

(* the simulator when the parameters of some phase shifters are [phase], where phase is
   any real number *)
Definition phase_optics (st : store) (p : grid) (phases : nat -> option R) : behaviour (list C) unit :=
  mkBeh (node_act (optics st p))
        (fun c state u => match phases (cid c) with
                          | Some ph => (u, phase_shifter ph p state)
                          | None => edge_act (optics st p) c state u
                          end).
Definition just (k : nat) (phase : R) : nat -> option R := fun i => if Nat.eqb i k then Some phase else None.
(* lines 71-72: the later assignment counts if both are the same object *)
Definition both (k1 k2 : nat) (phase1 phase2 : R) : nat -> option R :=
  fun i => if Nat.eqb i k2 then Some phase2 else if Nat.eqb i k1 then Some phase1 else None.

(* np.mean of a real array, and of its square: lines 28, 75 *)
Definition mean_value (state : list C) : R := fold_right Rplus 0 (map re state) / INR (length state).
Definition mean_square (state : list C) : R := fold_right Rplus 0 (map (fun z => re z * re z) state) / INR (length state).
(* _function (lines 24-29), _function_phase_both (lines 70-76); measure_propagator is
   lib/graph.py (measure of PropagateModel.v) *)
Definition phase_function (mean : list C -> R) (st : store) (p : grid) (g : graph) (node : node) (phases : nat -> option R) : res R :=
  let '(_, sv, r) := propagate (phase_optics st p phases) g (repeat C0 (n_samples p)) tt [] in
  do _ <- r; do state <- measure sv (PNode node); Ok (mean state).

(* grad(f)(x), lines 43, 93-98: the derivative; an exception raised by f goes through *)
Inductive differentiates (f : R -> res R) (x : R) : res R -> Prop :=
| diff_raises : forall e, f x = Err e -> differentiates f x (Err e)
| diff_value : forall h d, (forall y, f y = Ok (h y)) -> derivable_pt_lim h x d -> differentiates f x (Ok d).

(* parameters[0]: lines 39, 86, 89 *)
Definition current_phase (st : store) (k : nat) : res (pval * R) :=
  do ps <- get_params st k; do v <- at_ ps 0; do ph <- as_number v; Ok (v, ph).

(* PhaseSensitivity.evaluate_graph, lines 22-46: the store afterwards and the score *)
Inductive phase_sensitivity (st : store) (p : grid) (g : graph) (node : node) : store -> res R -> Prop :=
| ps_count : length (phase_models g) <> 1%nat -> phase_sensitivity st p g node st (Err RuntimeError)
| ps_unset : forall c e, phase_models g = [c] -> current_phase st (cid c) = Err e -> phase_sensitivity st p g node st (Err e)
| ps_raises : forall c v ph e st', phase_models g = [c] -> current_phase st (cid c) = Ok (v, ph) ->
    differentiates (fun x => phase_function mean_value st p g node (just (cid c) x)) ph (Err e) ->
    assign_parameters st (cid c) [v] = Ok st' -> phase_sensitivity st p g node st' (Err e)
| ps_score : forall c v ph d st', phase_models g = [c] -> current_phase st (cid c) = Ok (v, ph) ->
    differentiates (fun x => phase_function mean_value st p g node (just (cid c) x)) ph (Ok d) ->
    assign_parameters st (cid c) [v] = Ok st' -> phase_sensitivity st p g node st' (Ok (- Rabs d)).

(* SecondOrderDifferentialSensitivity.evaluate_graph, lines 69-111, with the components k1
   and k2 that the evaluator was constructed with; only evaluations that give a score, and
   the RuntimeError *)
Inductive second_order (st : store) (p : grid) (g : graph) (node : node) (k1 k2 : nat) : store -> res R -> Prop :=
| so_count : (length (phase_models g) < 2)%nat -> second_order st p g node k1 k2 st (Err RuntimeError)
| so_score : forall v1 ph1 v2 ph2 d1 first d12 st1 st2, (2 <= length (phase_models g))%nat ->
    current_phase st k1 = Ok (v1, ph1) -> current_phase st k2 = Ok (v2, ph2) ->
    differentiates (fun x => phase_function mean_square st p g node (both k1 k2 x ph2)) ph1 (Ok d1) ->
    (forall y, differentiates (fun x => phase_function mean_square st p g node (both k1 k2 x y)) ph1 (Ok (first y))) ->
    derivable_pt_lim first ph2 d12 ->
    assign_parameters st k1 [v1] = Ok st1 -> assign_parameters st1 k2 [v2] = Ok st2 ->
    second_order st p g node k1 k2 st2 (Ok (- (Rabs d1 + d12 * d12))).

(* the constructors, lines 13-15 and 57-60: assert phase_model.protected *)
Definition accepts (models : list comp) : res unit := if forallb cprot models then Ok tt else Err AssertionError.
