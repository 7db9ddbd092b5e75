(** Properties C01-C07, C12: evolution operators and graph construction. *)
From Coq Require Import List Arith Relations Permutation.
From Verif Require Import GraphModel GraphSpec OperatorsModel OperatorsSpec InitSpec GraphProofs TopoProofs OperatorsProofs
  EvolutionProofs TypingProofs ScriptModel InitProofs EffectsProofs EvolutionExamples.
Import ListNotations.

(** ** C01 *)
Theorem C01_evolution_keeps_dag : forall L g os g', evo_run L g os g' -> wf g -> acyclic g ->
  acyclic g' /\ exists o, topological_sort g' = Some o /\ valid_order g' o.
Proof. exact run_order. Qed.
Print Assumptions C01_evolution_keeps_dag.

Example C01_case : evo_run default_library g0 [AddSeries; Swap; AddSeries; AddParallel; Remove; Remove] g1 /\
  wf g0 /\ acyclic g0 /\ length (g_edges g1) = 5 /\ length (g_nodes g1) = 5.
Proof. exact (conj g1_run (conj g0_wf (conj g0_acyclic (conj eq_refl eq_refl)))). Qed.

(** ** C02 *)
Theorem C02_terminals_kept : forall L g os g', evo_run L g os g' -> wf g -> acyclic g ->
  (forall n, no_input g' n <-> no_input g n) /\ (forall n, no_output g' n <-> no_output g n) /\
  (forall n c, no_input g n \/ no_output g n -> (model_at g n c <-> model_at g' n c)) /\
  (forall n, is_node g' n -> exists s t, no_input g' s /\ no_output g' t /\ path g' s n /\ path g' n t).
Proof. exact run_terminals_paths. Qed.
Print Assumptions C02_terminals_kept.

(** ** C03 *)
Theorem C03_families_kept : forall L g os g', lib_ok L -> evo_run L g os g' -> wf g -> acyclic g -> typed g -> typed g'.
Proof. exact run_typed. Qed.
Print Assumptions C03_families_kept.

(* the default library has every class of components but the terminals and the five that are not registered; a custom library
   exists for every list without terminals and has the listed classes, each once *)
Definition offered (L : library) : list cls := source_models L ++ sink_models L ++ edge_models L ++ node_models L.
Theorem C03_libraries : lib_ok default_library /\ (forall cs L, custom_library cs = Some L -> lib_ok L) /\
  (forall c, In c (offered default_library) <-> ~ In c [TerminalSource; TerminalSink; FrequencySplitter; IntegratedSplitAndDelayLine; IntegratedDelayLine; Waveguide; PhaseShifter]) /\
  (forall cs, (exists L, custom_library cs = Some L) <-> ~ In TerminalSource cs /\ ~ In TerminalSink cs) /\
  (forall cs L, custom_library cs = Some L -> NoDup (offered L) /\ forall c, In c (offered L) <-> In c cs).
Proof.
  split; [exact default_lib_ok|]. split; [exact custom_lib_ok|]. split; [|split].
  - intros c. split; [intros I J; cbn in I, J|intros J; destruct c; cbn in *; tauto]. destruct J as [<-|[<-|[<-|[<-|[<-|[<-|[<-|[]]]]]]]]; repeat (destruct I as [I|I]; [discriminate|]); exact I.
  - intros cs. unfold custom_library. destruct (forallb _ cs) eqn:E.
    + split; [|intros _; eexists; reflexivity]. intros _. rewrite forallb_forall in E. split; intros J; specialize (E _ J); discriminate.
    + split; [intros (L & H); discriminate|]. intros [N1 N2]. exfalso. rename E into E0; assert (E : forallb (fun c => match family_of c with TermSource | TermSink => false | _ => true end) cs = true); [|congruence]. apply forallb_forall. intros c J. destruct c; try reflexivity; contradiction.
  - intros cs L H. unfold custom_library in H. destruct (forallb _ cs) eqn:E; [|discriminate]. injection H as <-. rewrite forallb_forall in E. unfold offered. cbn [source_models sink_models edge_models node_models].
    assert (M : forall f c, In c (nodup cls_eq_dec (filter (fun c => family_eqb (family_of c) f) cs)) <-> In c cs /\ family_of c = f).
    { intros f c. rewrite nodup_In, filter_In. unfold family_eqb. destruct (family_eq_dec (family_of c) f); intuition congruence. }
    split.
    + assert (Ap : forall (l l' : list cls), NoDup l -> NoDup l' -> (forall c, In c l -> ~ In c l') -> NoDup (l ++ l')).
      { induction l as [|x l IH]; intros l' A B D; [exact B|]. inversion A; subst. cbn. constructor; [rewrite in_app_iff; intros [K|K]; [contradiction|exact (D x (or_introl eq_refl) K)]|]. apply IH; [assumption|assumption|]. intros c K. apply D. right. exact K. }
      repeat apply Ap; try apply NoDup_nodup; intros c I J; repeat rewrite in_app_iff in J; repeat rewrite M in I; repeat rewrite M in J; destruct I as [_ I]; repeat (destruct J as [J|J]); destruct J as [_ J]; rewrite I in J; discriminate.
    + intros c. rewrite !in_app_iff, !M. split; [tauto|]. intros J. specialize (E c J). destruct (family_of c); try discriminate; tauto.
Qed.
Print Assumptions C03_libraries.

Example C03_case : typed g0.
Proof. exact g0_typed. Qed.

(** ** C04 *)
Theorem C04_protected_survive : forall L g os g', evo_run L g os g' -> wf g -> acyclic g ->
  Permutation (protected_components g') (protected_components g).
Proof. exact run_protected. Qed.
Print Assumptions C04_protected_survive.

Example C04_case : protected_components g0 = [mkComp 106 WaveShaper true].
Proof. reflexivity. Qed.

(** ** C05 *)
Theorem C05_growth_and_swap_within_ports : forall L g os g', lib_ok L -> evo_run L g os g' -> wf g -> acyclic g ->
  ~ In Remove os -> within_ports g -> within_ports g'.
Proof. exact run_ports. Qed.
Print Assumptions C05_growth_and_swap_within_ports.

Theorem C05_remove_ports_refuted : exists os, evo_run default_library gc0 os gc2 /\ wf gc0 /\ acyclic gc0 /\ typed gc0 /\
  within_ports gc0 /\ ~ within_ports gc2.
Proof. exact ports_exceeded. Qed.
Print Assumptions C05_remove_ports_refuted.

Example C05_case : within_ports g0.
Proof. exact g0_ports. Qed.

(** ** C06 *)
Theorem C06_never_raises : forall L o g l d locs, wf g ->
  possible_locations L o g = Some locs -> In l locs -> exists g', apply_op L o g l d = Some g'.
Proof. exact apply_op_total. Qed.
Print Assumptions C06_never_raises.

Theorem C06_locations_never_raise : forall L o g, wf g -> acyclic g -> exists locs, possible_locations L o g = Some locs.
Proof. exact locations_total. Qed.
Print Assumptions C06_locations_never_raise.

Theorem C06_add_series : forall L g n i d, wf g -> acyclic g -> In (LIface n i) (series_locations g) ->
  draws_ok L AddSeries g (LIface n i) d ->
  exists e rest g',
    i = (e_src e, e_dst e, e_key e) /\ (n = e_src e \/ n = e_dst e) /\ e_src e <> e_dst e /\
    Permutation (g_edges g) (e :: rest) /\
    apply_op L AddSeries g (LIface n i) d = Some g' /\ wf g' /\ acyclic g' /\
    g_nodes g' = g_nodes g ++ [(d_id d, fresh_ndata (d_node d))] /\
    Permutation (g_edges g')
      (mkE (e_src e) (d_id d) 0 (if Nat.eqb n (e_src e) then fresh_edata (d_edge d) else e_dat e) ::
       mkE (d_id d) (e_dst e) 0 (if Nat.eqb n (e_src e) then e_dat e else fresh_edata (d_edge d)) :: rest).
Proof. exact series_at. Qed.
Print Assumptions C06_add_series.

Theorem C06_add_parallel : forall L g a b locs d, wf g -> acyclic g ->
  parallel_locations g = Some locs -> In (LPair a b) locs -> draws_ok L AddParallel g (LPair a b) d ->
  exists k g', apply_op L AddParallel g (LPair a b) d = Some g' /\
    a <> b /\ inner g a /\ inner g b /\ ~ path g b a /\
    g_nodes g' = g_nodes g /\
    (forall e, In e (g_edges g) -> (e_src e, e_dst e, e_key e) <> (a, b, k)) /\
    Permutation (g_edges g') (mkE a b k (fresh_edata (d_edge d)) :: g_edges g).
Proof. exact parallel_at. Qed.
Print Assumptions C06_add_parallel.

Theorem C06_remove : forall L g n i d, wf g -> acyclic g -> In (LIface n i) (remove_locations g) ->
  exists e rest g' dn, i = (e_src e, e_dst e, e_key e) /\ (n = e_src e \/ n = e_dst e) /\
    Permutation (g_edges g) (e :: rest) /\
    In (n, dn) (g_nodes g) /\
    apply_op L Remove g (LIface n i) d = Some g' /\ wf g' /\
    ((path (mkG (g_nodes g) rest) (e_src e) (e_dst e) /\
      g_nodes g' = g_nodes g /\ g_edges g' = rest)
     \/
     (~ path (mkG (g_nodes g) rest) (e_src e) (e_dst e) /\
      ~ is_node g' (e_dst e) /\
      In (e_src e, dn) (g_nodes g') /\
      (forall m dm, m <> e_src e -> m <> e_dst e -> (In (m, dm) (g_nodes g') <-> In (m, dm) (g_nodes g))) /\
      Permutation (connections g')
        (map (fun t => match t with (a, b, c) => (merge (e_src e) (e_dst e) a, merge (e_src e) (e_dst e) b, c) end)
             (map connection rest)) /\
      (forall x, In x rest -> e_src x <> e_dst e -> e_dst x <> e_dst e -> In x (g_edges g')) /\
      g_nodes g' = set_assoc (e_src e) dn (filter (fun p => negb (Nat.eqb (fst p) (e_dst e))) (g_nodes g)))).
Proof. exact remove_at. Qed.
Print Assumptions C06_remove.

Theorem C06_swap_node : forall L g n d, lib_ok L -> wf g -> In (LNode n) (swap_locations L g) ->
  draws_ok L Swap g (LNode n) d ->
  exists nd g', In (n, nd) (g_nodes g) /\ apply_op L Swap g (LNode n) d = Some g' /\
    g_edges g' = g_edges g /\ map fst (g_nodes g') = map fst (g_nodes g) /\
    model_at g' n (d_swap d) /\
    ccls (d_swap d) <> ccls (n_model nd) /\ In (ccls (d_swap d)) (node_models L) /\
    (forall m dm, m <> n -> (In (m, dm) (g_nodes g') <-> In (m, dm) (g_nodes g))).
Proof. exact swap_node_at. Qed.
Print Assumptions C06_swap_node.

Theorem C06_swap_edge : forall L g i d, lib_ok L -> wf g -> In (LEdge i) (swap_locations L g) ->
  draws_ok L Swap g (LEdge i) d ->
  exists e rest g', i = (e_src e, e_dst e, e_key e) /\ Permutation (g_edges g) (e :: rest) /\
    apply_op L Swap g (LEdge i) d = Some g' /\
    g_nodes g' = g_nodes g /\
    Permutation (g_edges g') (mkE (e_src e) (e_dst e) (e_key e) (mkED (d_swap d) (e_name (e_dat e))) :: rest) /\
    ccls (d_swap d) <> ccls (e_model (e_dat e)) /\
    (typed g -> family_of (ccls (d_swap d)) = family_of (ccls (e_model (e_dat e)))).
Proof. exact swap_edge_at. Qed.
Print Assumptions C06_swap_edge.

(* the random draws the theorems above assume always exist *)
Theorem C06_draws_exist : forall L o g l locs, lib_ok L -> wf g -> edge_models L <> [] -> node_models L <> [] ->
  possible_locations L o g = Some locs -> In l locs -> exists d, draws_ok L o g l d.
Proof. exact draws_exist. Qed.
Print Assumptions C06_draws_exist.

Example C06_case : exists ls lp lr lw,
  possible_locations default_library AddSeries g0 = Some ls /\ In (LIface 1 (1, 2, 0)) ls /\
  possible_locations default_library AddParallel gc0 = Some lp /\ In (LPair 1 2) lp /\
  possible_locations default_library Remove g0 = Some lr /\ In (LIface 2 (1, 2, 0)) lr /\
  ~ In (LIface 2 (1, 2, 1)) lr (* a protected component *) /\
  possible_locations default_library Swap g0 = Some lw /\ In (LEdge (0, 1, 0)) lw.
Proof.
  do 4 eexists. repeat split; try (vm_compute; reflexivity); try (vm_compute; tauto).
  vm_compute; intuition discriminate.
Qed.

(** ** C07 *)
Theorem C07_add_remove_at_start : forall L g i d c, wf g -> acyclic g ->
  let u := fst (fst i) in
  In (LIface u i) (series_locations g) ->
  (exists dn, In (u, dn) (g_nodes g) /\ cprot (n_model dn) = false) ->
  draws_ok L AddSeries g (LIface u i) d ->
  exists g1 g2, apply_op L AddSeries g (LIface u i) d = Some g1 /\
    In (LIface u (u, d_id d, 0)) (remove_locations g1) /\
    apply_op L Remove g1 (LIface u (u, d_id d, 0)) c = Some g2 /\
    g_nodes g2 = g_nodes g /\ Permutation (connections g2) (connections g).
Proof. exact add_remove_left. Qed.
Print Assumptions C07_add_remove_at_start.

Theorem C07_add_remove_at_end : forall L g i d c, wf g -> acyclic g ->
  let v := snd (fst i) in
  In (LIface v i) (series_locations g) ->
  (exists dn, In (v, dn) (g_nodes g) /\ cprot (n_model dn) = false) ->
  draws_ok L AddSeries g (LIface v i) d ->
  exists g1 g2, apply_op L AddSeries g (LIface v i) d = Some g1 /\
    In (LIface v (d_id d, v, 0)) (remove_locations g1) /\
    apply_op L Remove g1 (LIface v (d_id d, v, 0)) c = Some g2 /\
    Permutation (node_models_of g2) (map (fun p => (merge (d_id d) v (fst p), snd p)) (node_models_of g)) /\
    Permutation (connections g2)
      (map (fun t => match t with (a, b, x) => (merge (d_id d) v a, merge (d_id d) v b, x) end) (connections g)).
Proof. exact add_remove_right. Qed.
Print Assumptions C07_add_remove_at_end.

Theorem C07_label_at_end_refuted : exists g i d c g' g'', wf g /\ acyclic g /\ typed g /\
  In (LIface (snd (fst i)) i) (series_locations g) /\
  (exists dn, In (snd (fst i), dn) (g_nodes g) /\ cprot (n_model dn) = false) /\
  draws_ok default_library AddSeries g (LIface (snd (fst i)) i) d /\
  apply_op default_library AddSeries g (LIface (snd (fst i)) i) d = Some g' /\
  apply_op default_library Remove g' (LIface (snd (fst i)) (d_id d, snd (fst i), 0)) c = Some g'' /\
  is_node g (snd (fst i)) /\ ~ is_node g'' (snd (fst i)).
Proof. exact label_lost. Qed.
Print Assumptions C07_label_at_end_refuted.

Example C07_case : In (LIface 1 (1, 2, 0)) (series_locations g0) /\ In (LIface 2 (1, 2, 0)) (series_locations g0) /\
  draws_ok default_library AddSeries g0 (LIface 1 (1, 2, 0)) (draw 200 201 202 10).
Proof. split; [vm_compute; tauto|]. split; [vm_compute; tauto|]. apply draws_okb_ok; vm_compute; reflexivity. Qed.

(** ** C12 *)
Theorem C12_init_graph : forall nodes edges g, NoDup (map fst nodes) -> init_graph nodes edges = Some g ->
  wf g /\ acyclic g /\ node_models_of g = nodes /\
  (forall u v, between g u v = numbered (requested edges u v)) /\
  Permutation (connections g) (map (fun p => match p with ((u, v, _), c) => (u, v, c) end) edges).
Proof. exact init_graph_some. Qed.
Print Assumptions C12_init_graph.

Theorem C12_init_graph_raises : forall nodes edges, NoDup (map fst nodes) ->
  (init_graph nodes edges = None <->
   wants_cycle edges
   \/ (exists u v k c, In ((u, v, k), c) edges /\ (~ declared nodes u \/ ~ declared nodes v))
   \/ (exists n c, In (n, c) nodes /\ ~ can_be_node c)).
Proof. exact init_graph_raises_iff. Qed.
Print Assumptions C12_init_graph_raises.

Example C12_case : init_graph nodes0 edges0 = Some g0 /\
  between g0 1 2 = [(0, mkComp 105 PhaseModulator false); (1, mkComp 106 WaveShaper true)].
Proof. split; vm_compute; reflexivity. Qed.
Example C12_raises : init_graph nodes0 (((2, 1, 0), mkComp 1 PhaseModulator false) :: edges0) = None.
Proof. vm_compute; reflexivity. Qed.
