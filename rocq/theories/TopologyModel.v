(** Model of the outer optimisation loop, algorithms/topology_optimization.py:23-144, for the four
    update rules without speciation (NoSpeciation, speciation.py:236-252, does nothing).
    Definitions only.  Not modelled: files, logging to the terminal, time, Ray start-up; a remote
    call receives and returns serialised copies, i.e. new graph objects. *)
From Coq Require Import List Arith Bool ZArith QArith.
From Verif Require Import Base GraphModel OperatorsModel ParamsModel EvolverModel FloatModel HofModel PopulationModel.
Import ListNotations.
Local Open Scope nat_scope.

Inductive rule := RuleRandom | RulePreferential | RuleRoulette | RuleTournament.

(* everything random in one generation *)
Record luck := mkLuck {
  lk_fuel : nat;                       (* bound on the rounds of the while loops *)
  lk_ch : nat -> nat -> dice;        (* individual, round *)
  lk_stop : nat -> nat -> bool;
  lk_u : nat -> Q;
  lk_rnd : nat -> nat -> nat }.

Record config := mkCfg {
  cf_rule : rule;
  cf_elitism : Q;
  cf_population : nat;                 (* ga_opts['n_population'] *)
  cf_generations : nat;                (* ga_opts['n_generations'] *)
  cf_hof : nat;                        (* ga_opts['n_hof'] *)
  cf_threshold : Q }.                  (* ged_threshold_value *)

Section Topology.
Variable L : library.
Variable ops : list op.
Variable ev : evolver.
Variable sim : world -> world -> res Q.
(* parameter optimisation of individual i in generation g *)
Variable opt0 : world -> res (fl * world).
Variable opt : nat -> nat -> world -> res (fl * world).
Variable lucks : nat -> luck.
Variable cfg : config.

(* lines 35-61 *)
Definition update_population (g : nat) (gen : Q) (h : heap) (p : population) : res (heap * population) :=
  let lk := lucks g in
  match cf_rule cfg with
  | RuleRandom => update_random L ops ev (Some gen) (cf_elitism cfg) (lk_fuel lk) (lk_ch lk) h p
  | RulePreferential => update_preferential L ops ev (Some gen) (cf_elitism cfg) (lk_fuel lk) (lk_ch lk) (lk_stop lk) h p
  | RuleRoulette => update_roulette L ops ev (Some gen) (cf_elitism cfg) (lk_u lk) (fun i => lk_ch lk i 0) h p
  | RuleTournament => update_tournament L ops ev (Some gen) (cf_elitism cfg) 3 (lk_rnd lk) (fun i => lk_ch lk i 0) h p
  end.

(* lines 116-122: every individual on its own, results as new objects *)
Fixpoint optimise_all (g i : nat) (h : heap) (p : population) : res (list (fl * world)) :=
  match p with
  | [] => Ok []
  | (s, r) :: rest =>
      do w <- deref h r;
      do sw <- optimise_complete (opt g i) s w;
      do l <- optimise_all g (S i) h rest;
      Ok (sw :: l)
  end.

(* line 128: population.sort(key=score), stable; the result for NaN scores is not Python's *)
Fixpoint insert_by_score (x : fl * world) (l : list (fl * world)) : list (fl * world) :=
  match l with
  | [] => [x]
  | y :: r => if fltb (fst x) (fst y) then x :: l else y :: insert_by_score x r
  end.
Definition sort_by_score (l : list (fl * world)) : list (fl * world) := fold_left (fun acc x => insert_by_score x acc) l [].

(* np.max/np.min of the scores raise on an empty list; lines 135, functions.py:18-32 *)
Record row := mkRow { r_generation : nat; r_best : option fl; r_size : nat }.

(* a generation's results: the heap holds the new population, addresses 0, 1, ... *)
Record state := mkSt {
  st_heap : heap;
  st_pop : population;
  st_hof : hof world;
  st_log : list row;
  st_saved : list (list (fl * world));       (* reduced_graphs/graph_gen{g+1}_*, line 138 *)
  st_evaluated : list (list (fl * world)) }. (* bookkeeping of the model: what was optimised *)

Definition place_all (l : list (fl * world)) : heap * population :=
  (map snd l, map (fun p => (Some (fst (snd p)), fst p)) (combine (seq 0 (length l)) l)).

(* lines 97-142 *)
Definition one_generation (g : nat) (st : state) : res state :=
  if Nat.eqb (cf_generations cfg) 1 then Err ZeroDivisionError       (* line 110 *)
  else
    let gen := (inject_Z (Z.of_nat g) / inject_Z (Z.of_nat (cf_generations cfg) - 1))%Q in
    do hp <- update_population g gen (st_heap st) (st_pop st);
    do done <- optimise_all g 0 (fst hp) (snd hp);
    do hof' <- update_hof world sim (cf_threshold cfg) (st_hof st) done;
    let kept := firstn (cf_population cfg) (sort_by_score done) in
    match hof' with
    | [] => Err IndexError                                            (* hof[0], line 135 *)
    | top :: _ =>
        match kept with
        | [] => Err ValueError                                        (* np.max of nothing *)
        | _ =>
            let (h, p) := place_all kept in
            Ok (mkSt h p hof' (st_log st ++ [mkRow g (option_map fst top) (length kept)])
                     (st_saved st ++ [kept]) (st_evaluated st ++ [done]))
        end
    end.

Fixpoint generations (todo g : nat) (st : state) : res state :=
  match todo with
  | O => Ok st
  | S t => do st' <- one_generation g st; generations t (S g) st'
  end.

(* lines 83-89: the initial graph is optimised once and copied *)
Definition start_state (w : world) : res state :=
  do sw <- optimise_complete opt0 None w;
  let l := repeat sw (cf_population cfg) in
  let (h, p) := place_all l in
  Ok (mkSt h p (init_hof world (cf_hof cfg)) [] [] []).

(* lines 23-144; the result is (hof, log) *)
Definition topology_optimization (w : world) : res state :=
  do st <- start_state w;
  generations (cf_generations cfg) 0 st.
End Topology.
