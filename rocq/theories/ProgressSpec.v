(** Specification vocabulary for runs that come to an end. *)
From Coq Require Import List Arith Bool ZArith QArith.
From Verif Require Import Base GraphModel GraphSpec OperatorsModel ParamsModel EvolverModel EvolveSpec FloatModel PopulationModel PopulationSpec TopologyModel.
Import ListNotations.
Local Open Scope nat_scope.

(* a graph in use that has something between its sources and its sinks *)
Definition has_inner (g : graph) : Prop := exists n, inner g n.
Definition workable (L : library) (ops : list op) (w : world) : Prop := in_use L ops w /\ has_inner (w_graph w).

(* an evolver that gives every possibility a chance: the default one, or the weighted one with positive weights *)
Definition open_minded (ev : evolver) : Prop :=
  match ev with Lookup => True | OpBased w => forall o, (0 < w o)%Q | Hessian _ => False end.

(* a parameter optimisation that always returns: a score, and the graph object with other parameters *)
Definition optimiser (L : library) (ops : list op) (good : fl -> Prop) (f : world -> res (fl * world)) : Prop :=
  forall w, workable L ops w -> exists s w', f w = Ok (s, w') /\ good s /\ workable L ops w'.

(* the scores a roulette wheel can be made of *)
Definition usable_score (r : rule) (s : fl) : Prop :=
  match r with RuleRoulette => exists q, s = Fin q /\ (0 < q)%Q | _ => True end.

(* the random numbers of a run are what the libraries promise *)
Definition fair_run (L : library) (ops : list op) (ev : evolver) (lucks : nat -> luck) : Prop :=
  forall g, (forall i j w gen, workable L ops w -> fair L ops w (mkCall ev (Some gen) (lk_ch (lucks g) i j w))) /\
    forall i, (0 <= lk_u (lucks g) i)%Q /\ (lk_u (lucks g) i < 1)%Q.
