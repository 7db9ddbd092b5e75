(** C17, C18, C19, C20: what simulating a graph computes, what can be measured, and noise. *)
From Coq Require Import List Arith Bool Lia ZArith QArith Permutation.
From Verif Require Import Base GraphModel GraphSpec GraphProofs TopoProofs ParamsModel ParamsSpec EvolverModel PropagateModel PropagateSpec PropagateProofs
  SimulateModel SimulateSpec SimulateProofs SwitchProofs EvolutionExamples EvolverExamples.
Import ListNotations.
Local Open Scope nat_scope.

(** ** C17: for any component behaviour *)
Theorem C17_sound : forall S X (B : behaviour S X) g src, wf g -> forall o x old x' sv, steady B g x -> valid_order g o ->
  propagate_along B g o src x old = (x', sv, Ok tt) ->
  x' = x /\ exists val out, solves B x g src val out /\ records g sv val out.
Proof. exact @along_sound. Qed.
Print Assumptions C17_sound.

Theorem C17_complete : forall S X (B : behaviour S X) g src, wf g -> forall o x old val out, steady B g x -> valid_order g o -> solves B x g src val out ->
  exists sv, propagate_along B g o src x old = (x, sv, Ok tt) /\ records g sv val out.
Proof. exact @along_complete. Qed.
Print Assumptions C17_complete.

Theorem C17_unique : forall S X (B : behaviour S X) g src, wf g -> forall x val out val' out', steady B g x -> acyclic g ->
  solves B x g src val out -> solves B x g src val' out' ->
  (forall e, In e (g_edges g) -> val e = val' e) /\ (forall n, no_output g n -> out n = out' n).
Proof. exact @solution_unique. Qed.
Print Assumptions C17_unique.

Theorem C17_all_orders : forall S X (B : behaviour S X) g src, wf g -> forall o o' x old old' x' sv, steady B g x -> valid_order g o -> valid_order g o' ->
  propagate_along B g o src x old = (x', sv, Ok tt) ->
  exists sv', propagate_along B g o' src x old' = (x', sv', Ok tt) /\ forall p, saved sv' p = saved sv p.
Proof. exact @same_for_all_orders. Qed.
Print Assumptions C17_all_orders.

Theorem C17_propagate : forall S X (B : behaviour S X) g src, wf g -> forall x old, steady B g x -> acyclic g ->
  (forall x' sv, propagate B g src x old = (x', sv, Ok tt) -> x' = x /\ exists val out, solves B x g src val out /\ records g sv val out) /\
  (forall val out, solves B x g src val out -> exists sv, propagate B g src x old = (x, sv, Ok tt) /\ records g sv val out).
Proof. exact @propagate_solution. Qed.
Print Assumptions C17_propagate.

(* for the components of the code, with or without noise, whatever happened before *)
Theorem C17_components : forall S V R (ph : physics S V R) st g p src (w w' : @process S V R), wf g -> run ph st g p src w = (w', Ok tt) ->
  (settled p g (p_noise w') \/ switch_of w' = false) /\
  exists val out, solves (parts ph st p) (p_noise w') g src val out /\ records g (p_saves w') val out.
Proof. exact @run_solves. Qed.
Print Assumptions C17_components.

Theorem C17_components_any_order : forall S V R (ph : physics S V R) st g p src (w w' : @process S V R) o old, wf g -> run ph st g p src w = (w', Ok tt) -> valid_order g o ->
  exists sv, propagate_along (parts ph st p) g o src (p_noise w') old = (p_noise w', sv, Ok tt) /\ forall pl, saved sv pl = saved (p_saves w') pl.
Proof. exact @run_any_order. Qed.
Print Assumptions C17_components_any_order.

(** A small numerical world: a signal is the list of everything that happened to it. *)
Definition toy : physics (list nat) nat nat :=
  mkPhys (fun _ _ p r => (10 * p + r, Datatypes.S r)) (fun k => 5 * k) (fun c _ _ s => Ok (s ++ [cid c])) (fun c _ _ v s => s ++ [cid c; v]) (fun _ => 0)
    (fun _ ss _ _ j => concat ss ++ [j]) (fun _ ss _ j => concat ss ++ [j])
    (fun _ _ _ l _ s => s ++ map (fun n => match so_vec n with Some v => v | None => 0 end) l) (fun a b => a ++ [99] ++ b).
(* the noise models as the constructors make them *)
Definition fresh_models : list (nat * nmodel nat) :=
  [(104, mkNoise None None true [mkSource FwhmLinewidth 0 None; mkSource Osnr 1 None]);
   (105, mkNoise None None false [mkSource PhaseFromLinewidth 0 None]);
   (107, mkNoise None None true [mkSource Rms 0 None; mkSource Shot 1 None])].
Definition start (b : bool) (r : nat) : @process (list nat) nat nat := mkP (mkN b r fresh_models) [].
Definition g0w : graph := w_graph w0.
Definition s0w : store := w_store w0.
Lemma g0w_wf : wf g0w.
Proof. destruct w0_healthy as ((W & _) & _). exact W. Qed.

(* parallel branches: both orders of a graph with two independent middle nodes agree *)
Definition diamond : graph :=
  match init_graph [(0, mkComp 1 TerminalSource false); (1, mkComp 2 VariablePowerSplitter false); (2, mkComp 3 FrequencySplitter false); (3, mkComp 4 FrequencySplitter false);
                    (4, mkComp 5 VariablePowerSplitter false); (5, mkComp 6 TerminalSink false)]
     [((0, 1, 0), mkComp 11 Impulse false); ((1, 2, 0), mkComp 12 DelayLine false); ((1, 3, 0), mkComp 13 DelayLine false); ((2, 4, 0), mkComp 14 DelayLine false);
      ((3, 4, 0), mkComp 15 DelayLine false); ((4, 5, 0), mkComp 16 MeasurementDevice false)] with Some g => g | None => empty_graph end.
Definition diamond_store : store :=
  match update_graph diamond (construct_all (components diamond) (mkStore [] [])) with Ok s => s | Err _ => mkStore [] [] end.
Fixpoint order_okb (g : graph) (o : list node) : bool :=
  match o with
  | [] => true
  | n :: r => forallb (fun e => negb (e_src e =? n) || existsb (Nat.eqb (e_dst e)) r) (g_edges g) && order_okb g r
  end.
Lemma order_okb_ok : forall g o, Permutation o (map fst (g_nodes g)) -> order_okb g o = true -> valid_order g o.
Proof.
  intros g o P H. split; [exact P|]. clear P. revert H. induction o as [|a o IH]; intros H l1 n l2 m E K; [destruct l1; discriminate|].
  simpl in H. apply andb_true_iff in H as [H1 H2]. destruct l1 as [|b l1]; injection E as -> ->.
  - destruct K as (e & He & Es & Ed). rewrite forallb_forall in H1. specialize (H1 e He). apply orb_true_iff in H1 as [H1|H1].
    + rewrite Es, Nat.eqb_refl in H1. discriminate.
    + apply existsb_exists in H1 as (x & Hx & Q). apply Nat.eqb_eq in Q. congruence.
  - exact (IH H2 l1 n l2 m eq_refl K).
Qed.
Definition quiet_noise : noise nat nat := mkN false 0 [].
Example C17_case :
  (exists sv, propagate_along (parts toy diamond_store 1) diamond [0; 1; 2; 3; 4; 5] [] quiet_noise [(PNode 9, [9])] = (quiet_noise, sv, Ok tt) /\
     measure sv (PNode 5) = Ok [11; 0; 12; 0; 14; 11; 1; 13; 0; 15; 0; 16] /\ measure sv (PNode 9) = Err KeyError /\
   exists sv', propagate_along (parts toy diamond_store 1) diamond [0; 1; 3; 2; 4; 5] [] quiet_noise [] = (quiet_noise, sv', Ok tt) /\
     measure sv' (PNode 5) = Ok [11; 0; 12; 0; 14; 11; 1; 13; 0; 15; 0; 16] /\ map fst sv' <> map fst sv) /\
  valid_order diamond [0; 1; 2; 3; 4; 5] /\ valid_order diamond [0; 1; 3; 2; 4; 5] /\ steady (parts toy diamond_store 1) diamond quiet_noise.
Proof.
  split.
  - eexists. split; [vm_compute; reflexivity|]. split; [vm_compute; reflexivity|]. split; [vm_compute; reflexivity|].
    eexists. split; [vm_compute; reflexivity|]. split; [vm_compute; reflexivity|]. vm_compute. discriminate.
  - split; [apply order_okb_ok; [apply Permutation_refl|vm_compute; reflexivity]|]. split; [apply order_okb_ok; [apply perm_skip, perm_skip, perm_swap|vm_compute; reflexivity]|]. apply settled_steady. right; reflexivity.
Qed.

(** ** C18 *)
Theorem C18_measurable : forall S X (B : behaviour S X) g src, wf g -> forall x old x' sv, propagate B g src x old = (x', sv, Ok tt) ->
  (forall n, (exists s, measure sv (PNode n) = Ok s) <-> no_output g n) /\
  (forall i, (exists s, measure sv (PEdge i) = Ok s) <-> exists e, In e (g_edges g) /\ (e_src e, e_dst e, e_key e) = i) /\
  (forall p e, measure sv p = Err e -> e = KeyError).
Proof. exact @measurable. Qed.
Print Assumptions C18_measurable.

Theorem C18_inspect_state : forall S X (B : behaviour S X) g src, wf g -> forall order x old x' sv, propagate B g src x old = (x', sv, Ok tt) ->
  (forall n, In n order <-> is_node g n) ->
  (g_edges g <> [] -> inspect_state order sv = Err KeyError) /\
  (g_edges g = [] -> exists ss, inspect_state order sv = Ok ss /\ length ss = length order).
Proof. exact @inspect_outcome. Qed.
Print Assumptions C18_inspect_state.

Theorem C18_sink_first : forall S V R (ph : physics S V R) st g p src (w w' : @process S V R) n c e rest, wf g -> run ph st g p src w = (w', Ok tt) ->
  no_output g n -> model_at g n c -> ccls c = TerminalSink \/ ccls c = TerminalSource -> arriving g n = e :: rest ->
  measure (p_saves w') (PNode n) = measure (p_saves w') (PEdge (e_src e, e_dst e, e_key e)).
Proof. exact @terminal_reports_first. Qed.
Print Assumptions C18_sink_first.

(* two detectors feed one sink: only the first is reported, and inspecting raises *)
Definition two_detectors : graph :=
  match init_graph [(0, mkComp 1 TerminalSource false); (1, mkComp 2 FrequencySplitter false); (2, mkComp 3 TerminalSink false)]
     [((0, 1, 0), mkComp 11 Impulse false); ((1, 2, 0), mkComp 12 Photodiode false); ((1, 2, 1), mkComp 13 MeasurementDevice false)] with Some g => g | None => empty_graph end.
Definition two_store : store :=
  match update_graph two_detectors (construct_all (components two_detectors) (mkStore [] [])) with Ok s => s | Err _ => mkStore [] [] end.
Example C18_case :
  let w := fst (run toy two_store two_detectors 1 [] (mkP quiet_noise [])) in
  snd (run toy two_store two_detectors 1 [] (mkP quiet_noise [])) = Ok tt /\
  measure (p_saves w) (PNode 2) = Ok [11; 0; 12] /\ measure (p_saves w) (PEdge (1, 2, 0)) = Ok [11; 0; 12] /\ measure (p_saves w) (PEdge (1, 2, 1)) = Ok [11; 1; 13] /\
  measure (p_saves w) (PNode 1) = Err KeyError /\ inspect_state [0; 1; 2] (p_saves w) = Err KeyError /\ map e_key (arriving two_detectors 2) = [0; 1].
Proof. vm_compute. repeat split; reflexivity. Qed.

(** ** C19 *)
Theorem C19_output_signal : forall S V R (ph : physics S V R) st g b p src q (w w' : @process S V R) r, wf g -> get_output ph b st g p src q w = (w', r) ->
  ((exists s, r = Ok s) -> switch_of w' = switch_of w) /\
  ((q <> None \/ exists n, no_output g n) -> forall e, snd (run ph st g p src (with_switch b w)) = Err e -> r = Err e /\ switch_of w' = b) /\
  (snd (run ph st g p src (with_switch b w)) = Ok tt -> switch_of w' = switch_of w) /\
  (~ (q <> None \/ exists n, no_output g n) -> r = Err IndexError /\ w' = w).
Proof. exact @get_output_switch. Qed.
Print Assumptions C19_output_signal.

Theorem C19_output_noise : forall S V R (ph : physics S V R) st g p src q (w w' : @process S V R) r, wf g -> get_output_noise ph st g p src q w = (w', r) ->
  ((exists s, r = Ok s) -> switch_of w' = switch_of w) /\
  (switch_of w' = switch_of w \/
   (exists e, r = Err e /\ snd (run ph st g p src (with_switch true w)) = Err e /\ switch_of w' = true) \/
   (exists e w1 s, r = Err e /\ get_output_signal ph st g p src q w = (w1, Ok s) /\ snd (run ph st g p src (with_switch false w1)) = Err e /\ switch_of w' = false)).
Proof. exact @get_output_noise_switch. Qed.
Print Assumptions C19_output_noise.

Theorem C19_snr : forall S V R (ph : physics S V R) st g p src sink (w w' : @process S V R) r, snr_signals ph st g p src sink w = (w', r) ->
  ((exists ab, r = Ok ab) -> switch_of w' = true) /\
  (snd (run ph st g p src (with_switch false w)) <> Ok tt -> switch_of w' = false).
Proof. exact @snr_switch. Qed.
Print Assumptions C19_snr.

(* a lone splitter has nothing to split: propagation raises, and the switch stays off although it was on *)
Definition lone : graph := match init_graph [(0, mkComp 1 VariablePowerSplitter false)] [] with Some g => g | None => empty_graph end.
Definition lone_store : store := match update_graph lone (construct_all (components lone) (mkStore [] [])) with Ok s => s | Err _ => mkStore [] [] end.
Theorem C19_always_restored_refuted : exists g st p src q (w w' : @process (list nat) nat nat) e, wf g /\ acyclic g /\
  get_output_signal_pure toy st g p src q w = (w', Err e) /\ switch_of w = true /\ switch_of w' = false.
Proof.
  exists lone, lone_store, 1, [], None, (start true 0). eexists. eexists.
  assert (Hl : NoDup (map fst [(0, mkComp 1 VariablePowerSplitter false)])) by (simpl; repeat constructor; simpl; tauto).
  destruct (InitProofs.init_graph_some [(0, mkComp 1 VariablePowerSplitter false)] [] lone Hl eq_refl) as (W & A & _).
  split; [exact W|]. split; [exact A|]. split; [vm_compute; reflexivity|]. split; reflexivity.
Qed.
Print Assumptions C19_always_restored_refuted.

Example C19_case :
  switch_of (fst (get_output_signal toy s0w g0w 1 [] None (start false 0))) = false /\
  switch_of (fst (get_output_signal_pure toy s0w g0w 1 [] None (start true 0))) = true /\
  (exists ab, snd (snr_signals toy s0w g0w 1 [] 3 (start false 0)) = Ok ab) /\
  switch_of (fst (snr_signals toy s0w g0w 1 [] 3 (start false 0))) = true.
Proof. split; [vm_compute; reflexivity|]. split; [vm_compute; reflexivity|]. split; [eexists; vm_compute; reflexivity|vm_compute; reflexivity]. Qed.

(** ** C20 *)
Theorem C20_pure_deterministic : forall S V R (ph ph' : physics S V R) st g p src q (w w' : @process S V R), wf g -> same_without_noise ph ph' ->
  modulators_ready g w -> modulators_ready g w' ->
  snd (get_output_signal_pure ph st g p src q w) = snd (get_output_signal_pure ph' st g p src q w').
Proof. exact @pure_result. Qed.
Print Assumptions C20_pure_deterministic.

Theorem C20_pure_draws_nothing : forall S V R (ph : physics S V R) st g p src q (w w' : @process S V R) r, wf g -> get_output_signal_pure ph st g p src q w = (w', r) ->
  models_of w' = models_of w /\ rng_of w' = rng_of w /\ ((exists s, r = Ok s) -> p_noise w' = p_noise w).
Proof. exact @pure_leaves. Qed.
Print Assumptions C20_pure_draws_nothing.

Theorem C20_noisy_repeats : forall S V R (ph : physics S V R) st g p src q (w w1 : @process S V R) s l, wf g ->
  get_output_signal ph st g p src q w = (w1, Ok s) -> Forall (quiet p) l ->
  models_of (acts ph st g l w1) = models_of w1 /\
  exists w2, get_output_signal ph st g p src q (acts ph st g l w1) = (w2, Ok s) /\ models_of w2 = models_of w1 /\ rng_of w2 = rng_of (acts ph st g l w1).
Proof. exact @noisy_repeat. Qed.
Print Assumptions C20_noisy_repeats.

Theorem C20_models_off : forall S V R (ph : physics S V R) st g p src q (w : @process S V R), wf g -> all_off w ->
  (forall e, In e (g_edges g) -> ccls (e_model (e_dat e)) <> PhaseModulator) ->
  snd (get_output_signal ph st g p src q w) = snd (get_output_signal_pure ph st g p src q w) /\
  models_of (fst (get_output_signal ph st g p src q w)) = models_of w.
Proof. exact @off_run. Qed.
Print Assumptions C20_models_off.

Theorem C20_resample_all_raises : forall S V R (ph : physics S V R) g seed (w : @process S V R), wf g -> g_edges g <> [] ->
  (forall n c, model_at g n c -> forall m, ~ In (cid c, m) (models_of w)) ->
  snd (resample_all_noise ph g seed w) = Err AttributeError /\ models_of (fst (resample_all_noise ph g seed w)) = models_of w.
Proof. exact @resample_all_raises. Qed.
Print Assumptions C20_resample_all_raises.

(* with every noise model switched off a phase modulator still adds its phase noise *)
Definition off_models : list (nat * nmodel nat) := map (fun im => (fst im, mkNoise (nm_prop (snd im)) (nm_seed (snd im)) false (nm_sources (snd im)))) fresh_models.
Theorem C20_models_off_refuted : exists st g p src q (w : @process (list nat) nat nat), wf g /\ all_off w /\
  exists a b, snd (get_output_signal toy st g p src q w) = Ok a /\ snd (get_output_signal_pure toy st g p src q w) = Ok b /\ a <> b.
Proof.
  exists s0w, g0w, 1, [], None, (mkP (mkN true 3 off_models) []). split; [exact g0w_wf|]. split.
  - intros i m H. vm_compute in H. destruct H as [H|[H|[H|[]]]]; injection H as <- <-; reflexivity.
  - eexists. eexists. split; [vm_compute; reflexivity|]. split; [vm_compute; reflexivity|]. discriminate.
Qed.
Print Assumptions C20_models_off_refuted.

(* going to another propagator and back draws new noise *)
Theorem C20_repeats_after_other_propagator_refuted : exists st g p p' src q (w : @process (list nat) nat nat), wf g /\
  let w1 := fst (get_output_signal toy st g p src q w) in
  let w2 := fst (get_output_signal toy st g p' src q w1) in
  exists a b, snd (get_output_signal toy st g p src q w) = Ok a /\ snd (get_output_signal toy st g p src q w2) = Ok b /\ a <> b.
Proof.
  exists s0w, g0w, 1, 2, [], None, (start true 0). split; [exact g0w_wf|]. cbv zeta. eexists. eexists. split; [vm_compute; reflexivity|]. split; [vm_compute; reflexivity|]. discriminate.
Qed.
Print Assumptions C20_repeats_after_other_propagator_refuted.

Example C20_case :
  let w1 := fst (get_output_signal toy s0w g0w 1 [] None (start true 0)) in
  snd (get_output_signal toy s0w g0w 1 [] None (start true 0)) = snd (get_output_signal toy s0w g0w 1 [] None w1) /\
  snd (get_output_signal toy s0w g0w 1 [] None (start true 0)) <> snd (get_output_signal toy s0w g0w 1 [] None (start true 7)) /\
  snd (get_output_signal_pure toy s0w g0w 1 [] None (start true 0)) = snd (get_output_signal_pure toy s0w g0w 1 [] None (start false 7)) /\
  rng_of w1 = 5 /\ Forall (@quiet (list nat) nat nat 1) [APure 2 [] None; ASwitch false; APropagate 1 [4]; AOther (fun r => r + 1)] /\
  modulators_ready g0w (start true 0).
Proof.
  cbv zeta. split; [vm_compute; reflexivity|]. split; [vm_compute; discriminate|]. split; [vm_compute; reflexivity|]. split; [vm_compute; reflexivity|].
  split; [repeat constructor|]. intros e He Hc. vm_compute in He.
  destruct He as [<-|[<-|[<-|[<-|[]]]]]; try discriminate Hc. eexists. right; left; reflexivity.
Qed.
