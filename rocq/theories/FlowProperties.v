(** C47: which graphs can be simulated, and that evolution never changes it. *)
From Coq Require Import List Arith Bool Lia ZArith QArith.
From Verif Require Import Base GraphModel GraphSpec OperatorsModel OperatorsSpec ParamsModel ParamsSpec EvolverModel EvolverSpec EvolveSpec InitProofs SaveSpec
  PropagateModel SimulateModel SimulateSpec FlowSpec FlowProofs EvolutionExamples EvolverExamples EvolverProperties SimulateProperties.
Import ListNotations.
Local Open Scope nat_scope.

Theorem C47_exact : forall S V R (ph : physics S V R) st g p src (w : @process S V R), wf g -> acyclic g -> backed g st -> sized g st -> tame ph p -> ready g (p_noise w) ->
  (snd (run ph st g p src w) = Ok tt <-> flows g).
Proof. exact @flow_exact. Qed.
Print Assumptions C47_exact.

Theorem C47_session : forall S V R (ph : physics S V R) L ops nodes edges cur parent g w0 w p src (pr : @process S V R) l,
  lib_ok L -> NoDup ops -> NoDup (map fst nodes) ->
  NoDup (map (fun p => cid (snd p)) nodes ++ map (fun p => cid (snd p)) edges) ->
  init_graph nodes edges = Some g -> typed g -> new_world nodes edges cur parent = Ok w0 -> session L ops w0 w ->
  tame ph p -> ready (w_graph w) (p_noise pr) -> Forall keeps_phase l ->
  let after := acts ph (w_store w) (w_graph w) l pr in
  (single_feed g ->
     snd (run ph (w_store w) (w_graph w) p src after) = Ok tt /\
     forall q, reads (w_graph w) q ->
       (exists s, snd (get_output_signal ph (w_store w) (w_graph w) p src q after) = Ok s) /\
       (exists s, snd (get_output_signal_pure ph (w_store w) (w_graph w) p src q after) = Ok s) /\
       (exists s, snd (get_output_noise ph (w_store w) (w_graph w) p src q after) = Ok s)) /\
  (~ single_feed g -> snd (run ph (w_store w) (w_graph w) p src after) = Err IndexError).
Proof. exact @session_flow. Qed.
Print Assumptions C47_session.


(* one source feeding two branches: propagation raises IndexError, before and after evolution *)
Definition fork_nodes : list (node * comp) :=
  [(0, mkComp 1 TerminalSource false); (1, mkComp 2 VariablePowerSplitter false); (2, mkComp 3 TerminalSink false)].
Definition fork_edges : list (eid * comp) :=
  [((0, 1, 0), mkComp 11 Impulse false); ((0, 1, 1), mkComp 12 Impulse false); ((1, 2, 0), mkComp 13 Photodiode false)].
Definition fork : graph := match init_graph fork_nodes fork_edges with Some g => g | None => empty_graph end.
Definition fork_store : store := match update_graph fork (construct_all (components fork) (mkStore [] [])) with Ok s => s | Err _ => mkStore [] [] end.
Theorem C47_always_simulatable_refuted : exists g st p src (w : @process (list nat) nat nat), wf g /\ acyclic g /\
  tame toy p /\ ready g (p_noise w) /\ snd (run toy st g p src w) = Err IndexError.
Proof.
  exists fork, fork_store, 1, [], (mkP (mkN true 0 []) []).
  assert (Hn : NoDup (map fst fork_nodes)) by (vm_compute; repeat constructor; simpl; intuition discriminate).
  destruct (init_graph_some fork_nodes fork_edges fork Hn eq_refl) as (W & A & _).
  split; [exact W|]. split; [exact A|]. split; [intros c ps s; eexists; reflexivity|]. split.
  - split; [intros i m []|]. intros e He Hc. exfalso. vm_compute in He. destruct He as [<-|[<-|[<-|[]]]]; discriminate Hc.
  - vm_compute; reflexivity.
Qed.
Print Assumptions C47_always_simulatable_refuted.

(* the graph of the examples before and after two evolution steps, in the middle of other calls *)
Definition calls0 : list (@action (list nat) nat nat) :=
  [ASignal 1 [] None; ASwitch true; AResample 107 (Some 3); ARenew 105 (mkNoise None None false [mkSource PhaseFromLinewidth 0 None]); AOn 104 false; APropagate 2 [5]; AResampleAll None].
Example C47_case :
  single_feed g0w /\ tame toy 1 /\ ready g0w (p_noise (start true 0)) /\ ready (w_graph w2) (p_noise (start true 0)) /\ Forall keeps_phase calls0 /\
  reads g0w None /\ reads g0w (Some (PEdge (1, 2, 1))) /\
  snd (run toy s0w g0w 1 [] (acts toy s0w g0w calls0 (start true 0))) = Ok tt /\
  (exists s, snd (get_output_noise toy (w_store w2) (w_graph w2) 1 [] None (acts toy (w_store w2) (w_graph w2) calls0 (start true 0))) = Ok s) /\
  flows g0w /\ flows (w_graph w2) /\ ~ single_feed fork /\ ~ flows fork /\ ~ flows lone.
Proof.
  assert (F : forall g, (forallb (fun n => existsb (fun e => e_dst e =? n) (g_edges g) || (departures g n <=? 1)) (map fst (g_nodes g)) = true) -> single_feed g).
  { intros g H n [(d & Hn) Hi]. rewrite forallb_forall in H. specialize (H n (in_map fst _ _ Hn)). apply orb_true_iff in H as [H|H]; [|apply Nat.leb_le; exact H].
    apply existsb_exists in H as (e & He & E). apply Nat.eqb_eq in E. exfalso. exact (Hi e He E). }
  split; [apply F; vm_compute; reflexivity|]. split; [intros c ps s; eexists; reflexivity|].
  assert (V : vectors_there (p_noise (start true 0))).
  { intros i m H Hp. exfalso. vm_compute in H. destruct H as [H|[H|[H|[]]]]; injection H as <- <-; apply Hp; reflexivity. }
  split.
  { split; [exact V|]. intros e He Hc. vm_compute in He. destruct He as [<-|[<-|[<-|[<-|[]]]]]; try discriminate Hc. split; [eexists; right; left; reflexivity|].
    intros m H. vm_compute in H. destruct H as [H|[H|[H|[]]]]; try discriminate H. injection H as <-. eexists. split; [left; reflexivity|reflexivity]. }
  split.
  { split; [exact V|]. intros e He Hc. exfalso. vm_compute in He. destruct He as [<-|[<-|[<-|[<-|[]]]]]; discriminate Hc. }
  split.
  { unfold calls0. repeat constructor. simpl. eexists. split; [left; reflexivity|reflexivity]. }
  split.
  { exists 3. split; [eexists; vm_compute; right; right; right; left; reflexivity|]. intros e He Q. vm_compute in He. destruct He as [<-|[<-|[<-|[<-|[]]]]]; discriminate Q. }
  split.
  { simpl. eexists. split; [vm_compute; right; right; left; reflexivity|reflexivity]. }
  split; [vm_compute; reflexivity|]. split; [eexists; vm_compute; reflexivity|].
  assert (G : forall g, (forallb (fun q => match ccls (n_model (snd q)) with
       | TerminalSource | TerminalSink => departures g (fst q) <=? Nat.max 1 (arrivals g (fst q)) | VariablePowerSplitter => 1 <=? arrivals g (fst q) | FrequencySplitter => true | _ => false end) (g_nodes g) &&
       forallb (fun e => match family_of (ccls (e_model (e_dat e))) with MultiPath => false | _ => true end) (g_edges g) = true) -> flows g).
  { intros g H. apply andb_true_iff in H as [H1 H2]. rewrite forallb_forall in H1, H2. split.
    - intros n c (d & Hd & <-). specialize (H1 (n, d) Hd). cbn [fst snd] in H1. destruct (ccls (n_model d)); try discriminate H1; try exact I; try (apply Nat.leb_le; exact H1).
    - intros e He Q. specialize (H2 e He). rewrite Q in H2. discriminate. }
  split; [apply G; vm_compute; reflexivity|]. split; [apply G; vm_compute; reflexivity|].
  assert (N : no_input fork 0).
  { split; [eexists; left; reflexivity|]. intros e He Q. vm_compute in He. destruct He as [<-|[<-|[<-|[]]]]; discriminate Q. }
  split; [intro H; specialize (H 0 N); vm_compute in H; lia|]. split.
  - intros [H _]. specialize (H 0 (mkComp 1 TerminalSource false) (ex_intro _ _ (conj (or_introl eq_refl) eq_refl))). vm_compute in H. lia.
  - intros [H _]. specialize (H 0 (mkComp 1 VariablePowerSplitter false) (ex_intro _ _ (conj (or_introl eq_refl) eq_refl))). vm_compute in H. lia.
Qed.
