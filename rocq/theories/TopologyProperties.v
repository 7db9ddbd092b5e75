(** The outer optimisation loop: C26 and C27. *)
From Coq Require Import List Arith Bool ZArith QArith Lia Lqa Permutation.
From Verif Require Import Base GraphModel GraphSpec OperatorsModel OperatorsSpec ParamsModel EvolverModel EvolveSpec EvolverExamples FloatModel HofModel HofSpec
  PopulationModel PopulationSpec TopologyModel TopologySpec TopologyProofs.
Import ListNotations.
Local Open Scope nat_scope.

(** ** C26 *)

(* elitism ratio times population size above one half (so that it rounds to at least one): no run with
   a generation in it returns *)
Theorem C26_elitism_aborts : forall L ops ev sim opt0 opt lucks cfg w st, 0 < cf_generations cfg ->
  (1 # 2 < cf_elitism cfg * inject_Z (Z.of_nat (cf_population cfg)))%Q ->
  topology_optimization L ops ev sim opt0 opt lucks cfg w <> Ok st.
Proof. exact run_elite. Qed.
Print Assumptions C26_elitism_aborts.

(* the reason: the update hands on scored individuals behind the offspring; once the offspring are
   optimised, optimising those raises *)
Theorem C26_elitism_error : forall L ops ev sim opt lucks cfg g st h' p', scored (st_pop st) -> holds_all (st_heap st) (st_pop st) ->
  (1 # 2 < cf_elitism cfg * inject_Z (Z.of_nat (length (st_pop st))))%Q -> cf_generations cfg <> 1 ->
  update_population L ops ev lucks cfg g (inject_Z (Z.of_nat g) / inject_Z (Z.of_nat (cf_generations cfg) - 1)) (st_heap st) (st_pop st) = Ok (h', p') ->
  exists kids elite, p' = kids ++ elite /\ elite <> [] /\ scored elite /\
    forall l, optimise_all opt g 0 h' kids = Ok l -> one_generation L ops ev sim opt lucks cfg g st = Err RuntimeError.
Proof. exact elite_error. Qed.
Print Assumptions C26_elitism_error.

(* at most one half: nothing scored is handed on, by any of the four update rules *)
Theorem C26_no_elite : forall L ops ev lucks cfg g gen h p h' p', holds_all h p ->
  (0 <= cf_elitism cfg * inject_Z (Z.of_nat (length p)))%Q -> (cf_elitism cfg * inject_Z (Z.of_nat (length p)) <= 1 # 2)%Q ->
  update_population L ops ev lucks cfg g gen h p = Ok (h', p') -> forall x, In x p' -> fst x = None.
Proof. exact no_elite_unscored. Qed.
Print Assumptions C26_no_elite.

(** ** C27 *)

(* one saved population and one log row per generation; each population is the best of what the
   generation evaluated, sorted; every score is the one its own optimisation returned *)
Theorem C27_generations : forall L ops ev sim opt0 opt lucks cfg w st, topology_optimization L ops ev sim opt0 opt lucks cfg w = Ok st ->
  length (st_saved st) = cf_generations cfg /\ length (st_log st) = cf_generations cfg /\ length (st_evaluated st) = cf_generations cfg /\
  forall g all, nth_error (st_evaluated st) g = Some all -> exists kept row, nth_error (st_saved st) g = Some kept /\ nth_error (st_log st) g = Some row /\
    1 <= length kept <= cf_population cfg /\ r_generation row = g /\ r_size row = length kept /\ (no_nan all -> n_best (cf_population cfg) all kept) /\
    forall i s w', nth_error all i = Some (s, w') -> exists w0, opt g i w0 = Ok (s, w').
Proof. exact run_generations. Qed.
Print Assumptions C27_generations.

(* the logged best score is the lowest of all evaluated up to then *)
Theorem C27_log : forall L ops ev sim opt0 opt lucks cfg w st, topology_optimization L ops ev sim opt0 opt lucks cfg w = Ok st ->
  no_nan (concat (st_evaluated st)) -> forall g row, nth_error (st_log st) g = Some row ->
  exists s, r_best row = Some s /\ lowest (concat (firstn (S g) (st_evaluated st))) s.
Proof. exact run_log. Qed.
Print Assumptions C27_log.

(* the hall of fame returned is the one C22-C24 speak about, for everything evaluated; its first score
   is the lowest of all *)
Theorem C27_hall_of_fame : forall L ops ev sim opt0 opt lucks cfg w st, topology_optimization L ops ev sim opt0 opt lucks cfg w = Ok st ->
  hof_run world sim (cf_threshold cfg) (init_hof world (cf_hof cfg)) (st_evaluated st) = Ok (st_hof st) /\
  (0 < cf_generations cfg -> no_nan (concat (st_evaluated st)) -> exists s gr rest, st_hof st = Some (s, gr) :: rest /\ lowest (concat (st_evaluated st)) s).
Proof. exact run_hof. Qed.
Print Assumptions C27_hall_of_fame.

(* exactly one generation: raises once the start graph is optimised *)
Theorem C27_one_generation : forall L ops ev sim opt0 opt lucks cfg w st0, cf_generations cfg = 1 -> start_state opt0 cfg w = Ok st0 ->
  topology_optimization L ops ev sim opt0 opt lucks cfg w = Err ZeroDivisionError.
Proof. exact run_single. Qed.
Print Assumptions C27_one_generation.

(* under every rule but the preferential one, started from a graph in use, with a parameter optimisation
   that only does what a session does: every graph evaluated is in use, hence sound *)
Theorem C27_graphs_sound : forall L ops ev sim opt0 opt lucks cfg, lib_ok L -> NoDup ops -> forall w st,
  (forall g i j w gen, in_use L ops w -> fair L ops w (mkCall ev (Some gen) (lk_ch (lucks g) i j w))) ->
  cf_rule cfg <> RulePreferential ->
  (forall w s w', in_use L ops w -> opt0 w = Ok (s, w') -> in_use L ops w') ->
  (forall g i w s w', in_use L ops w -> opt g i w = Ok (s, w') -> in_use L ops w') ->
  in_use L ops w -> topology_optimization L ops ev sim opt0 opt lucks cfg w = Ok st ->
  forall s w', In (s, w') (concat (st_evaluated st)) -> in_use L ops w' /\ healthy w'.
Proof. exact run_in_use. Qed.
Print Assumptions C27_graphs_sound.

(** ** Cases *)
(* scores 10, 9, ... over the run, parameters left alone *)
Definition toy_opt (g i : nat) (w : world) : res (fl * world) := Ok (Fin (inject_Z (10 - Z.of_nat (2 * g + i))), w).
Definition toy_sim (a b : world) : res Q := Ok (if Nat.eqb (length (g_nodes (w_graph a))) (length (g_nodes (w_graph b))) then 0 else 5)%Q.
Definition toy_luck (g : nat) : luck := mkLuck 4 (fun i j _ => ch0 (1 # 3) (20 + 10 * g + 3 * i + j)) (fun _ _ => true) (fun i => if Nat.eqb i 0 then (1 # 10) else (9 # 10))%Q (fun _ i => i).
Definition toy_cfg r e n gens := mkCfg r e n gens 2 1.
Definition toy_run c := topology_optimization default_library evo_op_list Lookup toy_sim (toy_opt 0 0) toy_opt toy_luck c w0.
Definition summary (r : res state) :=
  match r with
  | Ok st => Ok (map (fun l => map fst l) (st_evaluated st), map (fun l => map fst l) (st_saved st), map (fun r => (r_best r, r_size r)) (st_log st), map (option_map fst) (st_hof st))
  | Err e => Err e
  end.
Definition f (z : Z) : fl := Fin (inject_Z z).

Example C27_case : summary (toy_run (toy_cfg RuleTournament 0 2 2)) =
  Ok ([[f 10; f 9]; [f 8; f 7]], [[f 9; f 10]; [f 7; f 8]], [(Some (f 9), 2); (Some (f 7), 2)], [Some (f 7); Some (f 9)]).
Proof. vm_compute. reflexivity. Qed.
Example C27_preferential_case : summary (toy_run (toy_cfg RulePreferential 0 2 2)) =
  Ok ([[f 10; f 9]; [f 8; f 7]], [[f 9; f 10]; [f 7; f 8]], [(Some (f 9), 2); (Some (f 7), 2)], [Some (f 7); Some (f 9)]).
Proof. vm_compute. reflexivity. Qed.
Example C26_case : map (fun r => summary (toy_run (toy_cfg r (3 # 10) 2 2))) [RuleRandom; RulePreferential; RuleRoulette; RuleTournament] = repeat (Err RuntimeError) 4
  /\ summary (toy_run (toy_cfg RuleTournament (1 # 4) 2 2)) = summary (toy_run (toy_cfg RuleTournament 0 2 2)).
Proof. split; vm_compute; reflexivity. Qed.
