(** When an optimisation of the topology returns: C85. *)
From Coq Require Import List Arith Bool ZArith QArith Lia Permutation.
From Verif Require Import Base GraphModel GraphSpec OperatorsModel OperatorsSpec ParamsModel EvolverModel EvolverSpec EvolveSpec EvolutionExamples EvolutionProofs TypingProofs EvolverExamples ScriptModel
  FloatModel HofModel PopulationModel PopulationSpec TopologyModel TopologySpec ProgressSpec ProgressProofs.
Import ListNotations.
Local Open Scope nat_scope.

(** ** C85 *)

(* a component can be inserted in series exactly if the graph has an inner node *)
Theorem C85_place : forall L g, wf g -> (applicable L g AddSeries <-> has_inner g).
Proof. exact series_place. Qed.
Print Assumptions C85_place.

(* no history of evolution takes the last inner node away or makes the first one *)
Theorem C85_kept : forall L g os g', evo_run L g os g' -> wf g -> acyclic g -> (has_inner g' <-> has_inner g).
Proof. exact run_inner. Qed.
Print Assumptions C85_kept.

(* without an inner node nothing but swapping components is ever possible *)
Theorem C85_direct : forall L g os g' o, evo_run L g os g' -> wf g -> acyclic g -> ~ has_inner g -> applicable L g' o -> o = Swap.
Proof.
  intros L g os g' o R W A N H. destruct (run_wf_acyclic L g os g' R W A) as [W' A']. apply (only_swap L g' o W' A'); [|exact H].
  rewrite (run_inner L g os g' R W A). exact N.
Qed.
Print Assumptions C85_direct.

(* one call of the evolver on a sound graph with an inner node returns, and leaves such a graph *)
Theorem C85_evolves : forall L ops w c, lib_ok L -> NoDup ops -> In AddSeries ops -> sound w -> has_inner (w_graph w) -> open_minded (c_ev c) -> fair L ops w c ->
  exists w' o, do_call L ops w c = (w', Ok o) /\ In o ops /\ evo_step L (w_graph w) o (w_graph w') /\ sound w' /\ has_inner (w_graph w').
Proof. exact evolve_succeeds. Qed.
Print Assumptions C85_evolves.

(* a whole run: it returns, having evaluated and kept a full population in every generation; only the
   random rule may instead be found still in its while loop, however often that is allowed to go round *)
Theorem C85_returns : forall L ops ev sim opt0 opt lucks cfg w, lib_ok L -> NoDup ops -> In AddSeries ops -> open_minded ev ->
  fair_run L ops ev lucks -> (forall a b, exists d, sim a b = Ok d) ->
  optimiser L ops (usable_score (cf_rule cfg)) opt0 -> (forall g i, optimiser L ops (usable_score (cf_rule cfg)) (opt g i)) ->
  cf_rule cfg <> RulePreferential -> cf_generations cfg <> 1 -> 1 <= cf_population cfg -> 1 <= cf_hof cfg ->
  (0 <= cf_elitism cfg * inject_Z (Z.of_nat (cf_population cfg)))%Q -> (cf_elitism cfg * inject_Z (Z.of_nat (cf_population cfg)) <= 1 # 2)%Q ->
  workable L ops w ->
  (exists st, topology_optimization L ops ev sim opt0 opt lucks cfg w = Ok st /\
     (forall l, In l (st_evaluated st) -> length l = cf_population cfg) /\ (forall l, In l (st_saved st) -> length l = cf_population cfg)) \/
  (cf_rule cfg = RuleRandom /\ topology_optimization L ops ev sim opt0 opt lucks cfg w = Err OutOfFuel).
Proof.
  intros L ops ev sim opt0 opt lucks cfg w LO ND Hs Ho Fr Si O0 O NP N1 Np Nh E0 E1 K.
  exact (run_total L ops ev LO ND Hs Ho sim opt0 opt lucks cfg Fr Si O NP N1 Np Nh E0 E1 w O0 K).
Qed.
Print Assumptions C85_returns.

(* random numbers of the kind asked for exist, whatever the library offers *)
Theorem C85_numbers_exist : forall L ops ev u, lib_ok L -> edge_models L <> [] -> node_models L <> [] -> NoDup ops -> In AddSeries ops -> open_minded ev ->
  (0 <= u)%Q -> (u < 1)%Q -> exists lucks, fair_run L ops ev lucks /\ forall g i, lk_u (lucks g) i = u.
Proof.
  intros L ops ev u LO HE HN ND Hs Ho U0 U1. exists (house_luck L ops ev u). split; [exact (house_fair L LO HE HN ops ev u ND Hs Ho U0 U1)|reflexivity].
Qed.
Print Assumptions C85_numbers_exist.

(** ** Cases *)
Lemma w0_workable : workable default_library evo_op_list w0.
Proof.
  split.
  - exists nodes0, edges0, 1, 2, g0, w0. split; [exact nodes0_nodup|]. split; [exact objects0_nodup|]. split; [exact g0_built|]. split; [exact g0_typed|]. split; [exact w0_built|]. apply ses_start.
  - apply (series_place default_library). + rewrite w0_graph. exact g0_wf. + unfold applicable. vm_compute. discriminate.
Qed.
Definition still (w : world) : res (fl * world) := Ok (Fin 2, w).
Lemma still_optimiser : forall good : fl -> Prop, good (Fin 2) -> optimiser default_library evo_op_list good still.
Proof. intros good G w K. exists (Fin 2), w. auto. Qed.
Definition wheel_cfg : config := mkCfg RuleRoulette (1 # 10) 3 4 2 1.
Definition alike (a b : world) : res Q := Ok 0%Q.

(* every assumption of C85_returns holds of this run, and it returns *)
Example C85_case : exists st, topology_optimization default_library evo_op_list Lookup alike still (fun _ _ => still) (house_luck default_library evo_op_list Lookup (1 # 3)) wheel_cfg w0 = Ok st /\
  length (st_log st) = 4 /\ map (@length _) (st_saved st) = [3; 3; 3; 3] /\ map (fun l => map (fun x => length (g_edges (w_graph (snd x)))) l) (st_saved st) = [[5; 5; 5]; [6; 6; 6]; [5; 5; 5]; [6; 6; 6]].
Proof.
  destruct (C85_returns default_library evo_op_list Lookup alike still (fun _ _ => still) (house_luck default_library evo_op_list Lookup (1 # 3)) wheel_cfg w0) as [(st & E & _)|[Ru _]].
  - exact EvolutionExamples.default_lib_ok.
  - exact ops_nodup.
  - left. reflexivity.
  - exact I.
  - apply house_fair; [exact EvolutionExamples.default_lib_ok|discriminate|discriminate|exact ops_nodup|left; reflexivity|exact I|discriminate|reflexivity].
  - intros a b. eexists. reflexivity.
  - apply still_optimiser. exists 2%Q. split; reflexivity.
  - intros g i. apply still_optimiser. exists 2%Q. split; reflexivity.
  - discriminate.
  - discriminate.
  - cbn. lia.
  - cbn. lia.
  - vm_compute. discriminate.
  - vm_compute. discriminate.
  - exact w0_workable.
  - exists st. split; [exact E|].
    assert (K : match topology_optimization default_library evo_op_list Lookup alike still (fun _ _ => still) (house_luck default_library evo_op_list Lookup (1 # 3)) wheel_cfg w0 with
      Ok st => length (st_log st) = 4 /\ map (@length _) (st_saved st) = [3; 3; 3; 3] /\ map (fun l => map (fun x => length (g_edges (w_graph (snd x)))) l) (st_saved st) = [[5; 5; 5]; [6; 6; 6]; [5; 5; 5]; [6; 6; 6]] | Err _ => False end)
      by (vm_compute; repeat split; reflexivity).
    rewrite E in K. exact K.
  - discriminate.
Qed.

(* the while loop of the random rule: waveguides and splitters with one way out have nothing to optimise,
   so inserting them in series goes on and on *)
Definition plain_nodes : list (node * comp) := [(0, mkComp 1 TerminalSource false); (1, mkComp 2 VariablePowerSplitter false); (2, mkComp 3 TerminalSink false)].
Definition plain_edges : list ((node * node * key) * comp) := [((0, 1, 0), mkComp 4 Impulse false); ((1, 2, 0), mkComp 5 MeasurementDevice false)].
Definition plain_library : library := {| source_models := [Impulse]; sink_models := [MeasurementDevice]; edge_models := [Waveguide]; node_models := [VariablePowerSplitter] |}.
Definition endless (fuel : nat) : res heap :=
  evolve_until plain_library evo_op_list Lookup (Some 0%Q) fuel [the (new_world plain_nodes plain_edges 1 2)] 0 (fun j => house plain_library evo_op_list Lookup 0 j) 0.
Example C85_endless_case : map endless [1; 2; 3; 4; 5; 6] = repeat (Err OutOfFuel) 6 /\ has_inner (w_graph (the (new_world plain_nodes plain_edges 1 2))).
Proof.
  split; [vm_compute; reflexivity|]. exists 1. apply inner_degrees; [eexists; vm_compute; right; left; reflexivity|]. split; vm_compute; discriminate.
Qed.

(* a source wired straight to a sink: no inner node, and with one class of source and none of edge to swap to, nothing can be done *)
Example C85_direct_case : let g := mkG [(0, mkND (mkComp 1 TerminalSource false) TerminalSource); (1, mkND (mkComp 2 TerminalSink false) TerminalSink)]
    [mkE 0 1 0 (mkED (mkComp 3 Impulse false) Impulse)] in
  map (places plain_library g) evo_op_list = [[]; []; []; []] /\ n_choices plain_library evo_op_list g = 0 /\ n_choices default_library evo_op_list g <> 0.
Proof. vm_compute. split; [reflexivity|]. split; [reflexivity|discriminate]. Qed.
