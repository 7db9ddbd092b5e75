(** Theorems for C13 and C14, with concrete cases. *)
From Coq Require Import List Arith Bool Lia ZArith QArith Permutation.
From Verif Require Import Base GraphModel GraphSpec OperatorsModel OperatorsSpec InitSpec ParamsModel ParamsSpec EvolverModel EvolverSpec EvolveSpec
  GraphProofs ScriptModel EvolutionExamples EvolverExamples ParamsProofs SaveModel SaveSpec RebuildProofs SaveProofs LoadProofs SessionSaveProofs ResaveProofs.
Import ListNotations.
Local Open Scope nat_scope.

(** ** C13 *)
Theorem C13_copy : forall g s next, wf g -> acyclic g -> grouped g -> (forall n c, model_at g n c -> can_be_node c) -> backed g s -> unused_from next s ->
  exists g' s', duplicate g s next = Ok (g', s') /\ wf g' /\ acyclic g' /\ grouped g' /\ renumbered g' /\
    nodes_match (fun n => n) (fun n => node_copy s s' (departures g n)) g g' /\ edges_match (fun n => n) (edge_copy s s') g g' /\
    (forall i o ps, has s i o ps -> has s' i o ps) /\
    distinct_objects g' /\ (forall c, In c (components g') -> next <= cid c) /\ (separate s -> separate s').
Proof. exact duplicate_spec. Qed.
Print Assumptions C13_copy.

(* the hypotheses hold for every graph object reached from a newly built one *)
Theorem C13_every_session : forall L ops nodes edges cur parent g w0 w, lib_ok L -> NoDup ops -> NoDup (map fst nodes) ->
  NoDup (map (fun p => cid (snd p)) nodes ++ map (fun p => cid (snd p)) edges) ->
  init_graph nodes edges = Some g -> typed g -> new_world nodes edges cur parent = Ok w0 -> session L ops w0 w ->
  savable (w_graph w) (w_store w) /\ separate (w_store w) /\ (library_loadable L -> loadable g -> loadable (w_graph w)).
Proof. exact session_savable. Qed.
Print Assumptions C13_every_session.

(* write a vector that has 0.3 for the first splitter and 0.25 for the first parameter of the phase modulator *)
Definition x0 : extracted := match extract (w_graph w0) (w_store w0) with Ok x => x | Err _ => x_empty end.
Definition tuned_vector : list pval :=
  map (fun p => match p with (i, k, v) => if i =? 102 then Num (3 # 10) else if (i =? 105) && (k =? 0) then Num (1 # 4) else v end)
      (combine (combine (x_models x0) (x_index x0)) (x_params x0)).
Definition w_tuned : world := match distribute tuned_vector (x_models x0) (x_index x0) (w_store w0) with Ok s => with_store w0 s | Err _ => w0 end.

Definition between (v lo hi : pval) : bool := match v, lo, hi with Num x, Num a, Num b => Qle_bool a x && Qle_bool x b | _, _, _ => false end.
Fixpoint in_boundsb (vs los his : list pval) : bool :=
  match vs, los, his with
  | [], [], [] => true
  | v :: vr, l :: lr, h :: hr => between v l h && in_boundsb vr lr hr
  | _, _, _ => false
  end.
Lemma in_boundsb_ok : forall vs los his, in_boundsb vs los his = true -> in_bounds vs los his.
Proof.
  induction vs as [|v vs IH]; intros [|l los] [|h his] H; try discriminate.
  - split; [reflexivity|]. split; [reflexivity|]. intros [|k] v lo hi N; discriminate.
  - simpl in H. apply andb_true_iff in H as [B H]. destruct (IH _ _ H) as (L1 & L2 & R). split; [simpl; congruence|]. split; [simpl; congruence|].
    intros [|k] x lo hi N1 N2 N3.
    + injection N1 as <-; injection N2 as <-; injection N3 as <-. destruct v as [v|], l as [l|], h as [h|]; try discriminate B.
      apply andb_true_iff in B as [B1 B2]. apply Qle_bool_iff in B1; apply Qle_bool_iff in B2. exists v, l, h. tauto.
    + exact (R k x lo hi N1 N2 N3).
Qed.
Lemma tuned_session : session default_library evo_op_list w0 w_tuned.
Proof.
  assert (E : distribute tuned_vector (x_models x0) (x_index x0) (w_store w0) = Ok (w_store w_tuned)) by (vm_compute; reflexivity).
  apply (ses_write default_library evo_op_list w0 w0 x0 tuned_vector (w_store w_tuned)); [constructor|vm_compute; reflexivity| |exact E].
  apply in_boundsb_ok. vm_compute. reflexivity.
Qed.
Definition copy_of (w : world) : graph * store := match duplicate (w_graph w) (w_store w) 1000 with Ok r => r | Err _ => (empty_graph, mkStore [] []) end.
Definition node_objects (g : graph) : list nat := map (fun p => cid (n_model (snd p))) (g_nodes g).
Definition edge_objects (g : graph) : list nat := map (fun e => cid (e_model (e_dat e))) (edges_view g).
Definition node_values (g : graph) (s : store) : list (list pval) := map (params_of s) (node_objects g).
Definition edge_values (g : graph) (s : store) : list (list pval) := map (params_of s) (edge_objects g).

Example C13_case :
  node_values (w_graph w_tuned) (w_store w_tuned) = [[]; [Num (3 # 10)]; []; []] /\
  node_values (fst (copy_of w_tuned)) (snd (copy_of w_tuned)) = [[]; [Num (1 # 2)]; []; []] /\
  edge_values (fst (copy_of w_tuned)) (snd (copy_of w_tuned)) = edge_values (w_graph w_tuned) (w_store w_tuned) /\
  map e_id (edges_view (fst (copy_of w_tuned))) = map e_id (edges_view (w_graph w_tuned)) /\
  node_values (w_graph w_tuned) (snd (copy_of w_tuned)) = node_values (w_graph w_tuned) (w_store w_tuned).
Proof. split; [vm_compute; reflexivity|]. split; [vm_compute; reflexivity|]. split; [vm_compute; reflexivity|]. split; vm_compute; reflexivity. Qed.

(* "a copy has the parameters of the original" is false *)
Theorem C13_copy_keeps_parameters_refuted : exists g s next g' s', savable g s /\ unused_from next s /\ duplicate g s next = Ok (g', s') /\
  node_values g' s' <> node_values g s.
Proof.
  assert (Sv : savable (w_graph w_tuned) (w_store w_tuned)).
  { destruct (session_savable default_library evo_op_list nodes0 edges0 1 2 g0 w0 w_tuned default_lib_ok ops_nodup nodes0_nodup objects0_nodup g0_built g0_typed w0_built) as [H _]; [exact tuned_session|exact H]. }
  exists (w_graph w_tuned), (w_store w_tuned), 1000, (fst (copy_of w_tuned)), (snd (copy_of w_tuned)).
  split; [exact Sv|split; [|split; [vm_compute; reflexivity|vm_compute; discriminate]]].
  - intros i o H. assert (X : forallb (fun x => fst x <? 1000) (s_objs (w_store w_tuned)) = true) by (vm_compute; reflexivity).
    rewrite forallb_forall in X. apply assoc_In in H. specialize (X _ H). apply Nat.ltb_lt in X. exact X.
Qed.
Print Assumptions C13_copy_keeps_parameters_refuted.

(** ** C14 *)
Theorem C14_round_trip : forall g s next, wf g -> acyclic g -> grouped g -> (forall n c, model_at g n c -> can_be_node c) -> g_nodes g <> [] ->
  backed g s -> loadable g -> unused_from next s ->
  exists f, (forall i p, nth_error (g_nodes g) i = Some p -> f (fst p) = label (ccls (n_model (snd p)), i)) /\ one_to_one f g /\
  (sized g s -> exists g' s', save_and_load g s next = Ok (g', s') /\
    wf g' /\ acyclic g' /\ grouped g' /\ renumbered g' /\
    nodes_match f (fun n => node_loaded s s' (departures g n)) g g' /\ edges_match f (edge_loaded s s') g g' /\
    (forall i o ps, has s i o ps -> has s' i o ps) /\
    distinct_objects g' /\ (forall c, In c (components g') -> next <= cid c) /\ (separate s -> separate s')) /\
  (~ sized g s -> save_and_load g s next = Err ValueError).
Proof. exact save_load_gen. Qed.
Print Assumptions C14_round_trip.

Theorem C14_resave : forall g s next, savable g s -> g_nodes g <> [] -> loadable g -> unused_from next s ->
  exists g' s' m m', save_and_load g s next = Ok (g', s') /\ extract_minimal g s = Ok m /\ extract_minimal g' s' = Ok m' /\ same_file m s m' s'.
Proof. exact save_load_save. Qed.
Print Assumptions C14_resave.

Theorem C14_unknown_class : forall g s next, wf g -> g_nodes g <> [] -> backed g s -> ~ loadable g -> save_and_load g s next = Err KeyError.
Proof. exact load_unknown_class. Qed.
Print Assumptions C14_unknown_class.

Theorem C14_no_node : forall g s next, g_nodes g = [] -> save_and_load g s next = Err NameError.
Proof. intros g s next H. unfold save_and_load, extract_minimal. rewrite H. reflexivity. Qed.
Print Assumptions C14_no_node.

Definition loaded (w : world) : graph * store := match save_and_load (w_graph w) (w_store w) 1000 with Ok r => r | Err _ => (empty_graph, mkStore [] []) end.
(* the tuned splitter and the tuned modulator come back; node labels are the names, parallel numbers start at 0 *)
Example C14_case :
  node_values (fst (loaded w_tuned)) (snd (loaded w_tuned)) = [[]; [Num (3 # 10)]; []; []] /\
  edge_values (fst (loaded w_tuned)) (snd (loaded w_tuned)) = edge_values (w_graph w_tuned) (w_store w_tuned) /\
  node_ids (fst (loaded w_tuned)) = [label (TerminalSource, 0); label (VariablePowerSplitter, 1); label (VariablePowerSplitter, 2); label (TerminalSink, 3)] /\
  map (fun p => ccls (n_model (snd p))) (g_nodes (fst (loaded w_tuned))) = map (fun p => ccls (n_model (snd p))) (g_nodes (w_graph w_tuned)).
Proof. split; [vm_compute; reflexivity|]. split; [vm_compute; reflexivity|]. split; vm_compute; reflexivity. Qed.

(* a connector with nothing behind it cannot be loaded, a class without registration neither *)
Example C14_raises_case :
  (exists w, new_world [(0, mkComp 1 TerminalSource false); (1, mkComp 2 VariablePowerSplitter false)] [((0, 1, 0), mkComp 3 PulsedLaser false)] 1 2 = Ok w /\
             save_and_load (w_graph w) (w_store w) 1000 = Err ValueError) /\
  (exists w, new_world [(0, mkComp 1 TerminalSource false); (1, mkComp 2 FrequencySplitter false); (2, mkComp 4 TerminalSink false)]
               [((0, 1, 0), mkComp 3 PulsedLaser false); ((1, 2, 0), mkComp 5 Photodiode false)] 1 2 = Ok w /\
             save_and_load (w_graph w) (w_store w) 1000 = Err KeyError).
Proof. split; (eexists; split; [vm_compute; reflexivity|vm_compute; reflexivity]). Qed.

(* "a graph built from the extracted information is independent of the original" is false
   when the information is not sent through a file: the parameter lists are the same objects *)
Theorem C14_without_file_independent_refuted : exists w m g' s' i j v s'', extract_minimal (w_graph w) (w_store w) = Ok m /\
  build_minimal m 1000 (w_store w) = Ok (g', s') /\ In i (edge_objects (w_graph w)) /\ In j (edge_objects g') /\ i <> j /\
  write_param s' j 0 v = Ok s'' /\ params_of s'' i <> params_of s' i.
Proof.
  exists w0. destruct (extract_minimal (w_graph w0) (w_store w0)) as [m|] eqn:Em; [|vm_compute in Em; discriminate]. exists m.
  destruct (build_minimal m 1000 (w_store w0)) as [[g' s']|] eqn:Eb.
  2: { vm_compute in Em. injection Em as <-. vm_compute in Eb. discriminate. }
  exists g', s', 105, 1005, (Num (1 # 8)). vm_compute in Em. injection Em as <-. vm_compute in Eb. injection Eb as <- <-.
  eexists. split; [reflexivity|]. split; [reflexivity|]. split; [vm_compute; tauto|]. split; [vm_compute; tauto|]. split; [lia|]. split; [vm_compute; reflexivity|vm_compute; discriminate].
Qed.
Print Assumptions C14_without_file_independent_refuted.
