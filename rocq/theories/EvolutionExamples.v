(** Concrete graphs and histories: they show the hypotheses of the evolution
    theorems are met, and serve as witnesses. *)
From Coq Require Import List Arith Bool Lia Relations Permutation.
From Verif Require Import GraphModel GraphSpec GraphProofs TopoProofs OperatorsModel OperatorsSpec
  OperatorsProofs EvolutionProofs TypingProofs ScriptModel InitSpec InitProofs EffectsProofs.
Import ListNotations.

(** ** Boolean checkers with soundness *)

Definition typedb (g : graph) : bool :=
  forallb (fun p =>
    let n := fst p in let c := ccls (n_model (snd p)) in
    if Nat.eqb (in_degree g n) 0 then cls_eqb c TerminalSource
    else if Nat.eqb (out_degree g n) 0 then cls_eqb c TerminalSink
    else family_eqb (family_of c) MultiPath) (g_nodes g) &&
  forallb (fun e =>
    let f := family_of (ccls (e_model (e_dat e))) in
    if Nat.eqb (in_degree g (e_src e)) 0 then family_eqb f SourceModel
    else if Nat.eqb (out_degree g (e_dst e)) 0 then family_eqb f SinkModel
    else family_eqb f SinglePath) (g_edges g).

Definition portsb (g : graph) : bool :=
  forallb (fun p =>
    let n := fst p in let c := ccls (n_model (snd p)) in
    Nat.eqb (in_degree g n) 0 || Nat.eqb (out_degree g n) 0 ||
    (Nat.leb (arrivals g n) (max_inputs c) && Nat.leb (departures g n) (max_outputs c))) (g_nodes g).

Lemma family_eqb_eq : forall a b, family_eqb a b = true <-> a = b.
Proof. intros a b; unfold family_eqb; destruct (family_eq_dec a b); split; congruence. Qed.

Lemma typedb_typed : forall g, wf g -> typedb g = true -> typed g.
Proof.
  intros g W H. unfold typedb in H. apply andb_true_iff in H; destruct H as [Hn He].
  rewrite forallb_forall in Hn, He.
  assert (N : forall n c, model_at g n c ->
    (if Nat.eqb (in_degree g n) 0 then cls_eqb (ccls c) TerminalSource
     else if Nat.eqb (out_degree g n) 0 then cls_eqb (ccls c) TerminalSink
     else family_eqb (family_of (ccls c)) MultiPath) = true).
  { intros n c (d & Hd & <-). exact (Hn (n, d) Hd). }
  constructor.
  - intros n c I M; apply N in M. apply no_input_iff in I; destruct I as [_ Z]; rewrite Z in M. simpl in M. apply cls_eqb_eq in M; exact M.
  - intros n c I O M; apply N in M. apply no_output_iff in O; destruct O as [Nn Eo]; rewrite Eo in M.
    rewrite no_input_iff in I. destruct (Nat.eqb_spec (in_degree g n) 0); [tauto|]. apply cls_eqb_eq in M; exact M.
  - intros n c (Nn & I & O) M; apply N in M. rewrite no_input_iff in I; rewrite no_output_iff in O.
    destruct (Nat.eqb_spec (in_degree g n) 0); [tauto|]. destruct (Nat.eqb_spec (out_degree g n) 0); [tauto|].
    apply family_eqb_eq in M; exact M.
  - intros e H I; apply He in H. apply no_input_iff in I; destruct I as [_ Z]; rewrite Z in H. apply family_eqb_eq in H; exact H.
  - intros e H I O; pose proof (wf_ends g W e H) as [Ns Nd]; apply He in H. apply no_output_iff in O; destruct O as [_ Eo]; rewrite Eo in H.
    rewrite no_input_iff in I. destruct (Nat.eqb_spec (in_degree g (e_src e)) 0); [tauto|]. apply family_eqb_eq in H; exact H.
  - intros e H I O; pose proof (wf_ends g W e H) as [Ns Nd]; apply He in H. rewrite no_input_iff in I; rewrite no_output_iff in O.
    destruct (Nat.eqb_spec (in_degree g (e_src e)) 0); [tauto|]. destruct (Nat.eqb_spec (out_degree g (e_dst e)) 0); [tauto|].
    apply family_eqb_eq in H; exact H.
Qed.

Lemma portsb_ports : forall g, portsb g = true -> within_ports g.
Proof.
  intros g H n c (Nn & I & O) (d & Hd & <-). unfold portsb in H; rewrite forallb_forall in H; specialize (H _ Hd); simpl in H.
  rewrite no_input_iff in I; rewrite no_output_iff in O.
  rewrite !orb_true_iff, andb_true_iff, !Nat.eqb_eq, !Nat.leb_le in H. tauto.
Qed.

(** ** A start graph as a user writes it *)

Definition src_node := mkComp 100 TerminalSource false.
Definition snk_node := mkComp 101 TerminalSink false.
Definition bs (i : nat) := mkComp i VariablePowerSplitter false.

Definition nodes0 : list (node * comp) := [(0, src_node); (1, bs 102); (2, bs 103); (3, snk_node)].
Definition edges0 : list (eid * comp) :=
  [((0, 1, 7), mkComp 104 ContinuousWaveLaser false);
   ((1, 2, 0), mkComp 105 PhaseModulator false);
   ((1, 2, 5), mkComp 106 WaveShaper true);
   ((2, 3, 0), mkComp 107 Photodiode false)].
Definition g0 : graph := match init_graph nodes0 edges0 with Some g => g | None => empty_graph end.

Lemma g0_built : init_graph nodes0 edges0 = Some g0.
Proof. vm_compute; reflexivity. Qed.

Lemma nodes0_nodup : NoDup (map fst nodes0).
Proof. simpl; repeat constructor; simpl; intuition discriminate. Qed.

Lemma g0_wf : wf g0.
Proof. exact (proj1 (init_graph_some nodes0 edges0 g0 nodes0_nodup g0_built)). Qed.
Lemma g0_acyclic : acyclic g0.
Proof. exact (proj1 (proj2 (init_graph_some nodes0 edges0 g0 nodes0_nodup g0_built))). Qed.
Lemma g0_typed : typed g0.
Proof. apply typedb_typed; [exact g0_wf|vm_compute; reflexivity]. Qed.
Lemma g0_ports : within_ports g0.
Proof. apply portsb_ports; vm_compute; reflexivity. Qed.

Lemma default_lib_ok : lib_ok default_library.
Proof.
  constructor; simpl; intros; try (repeat constructor; simpl; intuition discriminate);
    repeat match goal with H : _ \/ _ |- _ => destruct H as [<-|H]; [reflexivity|] | H : False |- _ => contradiction end.
Qed.

Lemma custom_lib_ok : forall cs L, custom_library cs = Some L -> lib_ok L.
Proof.
  intros cs L H; unfold custom_library in H. destruct (forallb _ cs); [|discriminate]. injection H as <-.
  constructor; cbn [source_models sink_models edge_models node_models]; try apply NoDup_nodup;
    intros c Hc; apply nodup_In, filter_In in Hc; destruct Hc as [_ Hc]; apply family_eqb_eq in Hc; exact Hc.
Qed.

(** ** A history using all four operators *)

Definition fresh (i : nat) (c : cls) := mkComp i c false.
Definition draw (e n s : nat) (i : node) : draws :=
  mkDraws (fresh e DispersiveFiber) (bs n) (fresh s IntensityModulator) i.

Definition script1 : list (op * location * draws) :=
  [(AddSeries, LIface 1 (1, 2, 0), draw 200 201 202 10);
   (Swap, LEdge (10, 2, 0), draw 203 204 205 11);
   (AddSeries, LIface 2 (10, 2, 0), draw 206 207 208 12);
   (AddParallel, LPair 10 12, draw 209 210 211 13);
   (Remove, LIface 10 (10, 12, 0), draw 0 0 0 0);
   (Remove, LIface 12 (12, 2, 0), draw 0 0 0 0)].
Definition g1 : graph := match run_script default_library g0 script1 with Some g => g | None => empty_graph end.
Lemma g1_run : evo_run default_library g0 [AddSeries; Swap; AddSeries; AddParallel; Remove; Remove] g1.
Proof. apply (run_script_run default_library script1 g0 g1). vm_compute; reflexivity. Qed.

(** ** A history that exceeds the port maximum *)

Definition chain_edges : list (eid * comp) :=
  [((0, 1, 0), mkComp 104 ContinuousWaveLaser false);
   ((1, 2, 0), mkComp 105 PhaseModulator false);
   ((2, 3, 0), mkComp 107 Photodiode false)].
Definition gc0 : graph := match init_graph nodes0 chain_edges with Some g => g | None => empty_graph end.
Lemma gc0_built : init_graph nodes0 chain_edges = Some gc0.
Proof. vm_compute; reflexivity. Qed.

Definition script2 : list (op * location * draws) :=
  [(AddSeries, LIface 1 (1, 2, 0), draw 200 201 202 10);      (* 1 -> 10 -> 2 *)
   (AddSeries, LIface 10 (10, 2, 0), draw 203 204 205 11);    (* 1 -> 10 -> 11 -> 2 *)
   (AddSeries, LIface 11 (11, 2, 0), draw 206 207 208 12);    (* 1 -> 10 -> 11 -> 12 -> 2 *)
   (AddParallel, LPair 10 11, draw 209 210 211 13);           (* 11 has two inputs *)
   (AddParallel, LPair 1 12, draw 212 213 214 14);            (* 12 has two inputs *)
   (Remove, LIface 11 (11, 12, 0), draw 0 0 0 0)].            (* merged: three inputs *)
Definition gc2 : graph := match run_script default_library gc0 script2 with Some g => g | None => empty_graph end.

Lemma ports_exceeded : exists os, evo_run default_library gc0 os gc2 /\ wf gc0 /\ acyclic gc0 /\ typed gc0 /\
  within_ports gc0 /\ ~ within_ports gc2.
Proof.
  exists (map (fun x => fst (fst x)) script2).
  destruct (init_graph_some nodes0 chain_edges gc0 nodes0_nodup gc0_built) as (W & A & _).
  split; [apply run_script_run; vm_compute; reflexivity|]. split; [exact W|]. split; [exact A|].
  split; [apply typedb_typed; [exact W|vm_compute; reflexivity]|]. split; [apply portsb_ports; vm_compute; reflexivity|].
  intros P. assert (M : model_at gc2 11 (bs 204)).
  { exists (mkND (bs 204) VariablePowerSplitter); split; [vm_compute; tauto|reflexivity]. }
  assert (I : inner gc2 11).
  { unfold inner. rewrite no_input_iff, no_output_iff. split; [|split; intros [_ Z]; vm_compute in Z; discriminate].
    destruct M as (d & Hd & _); exists d; exact Hd. }
  destruct (P 11 (bs 204) I M) as [Bad _]. vm_compute in Bad. lia.
Qed.

(** ** Add-series then remove at the end of an edge renames the end node *)

Lemma label_lost : exists g i d c g' g'', wf g /\ acyclic g /\ typed g /\
  In (LIface (snd (fst i)) i) (series_locations g) /\
  (exists dn, In (snd (fst i), dn) (g_nodes g) /\ cprot (n_model dn) = false) /\
  draws_ok default_library AddSeries g (LIface (snd (fst i)) i) d /\
  apply_op default_library AddSeries g (LIface (snd (fst i)) i) d = Some g' /\
  apply_op default_library Remove g' (LIface (snd (fst i)) (d_id d, snd (fst i), 0)) c = Some g'' /\
  is_node g (snd (fst i)) /\ ~ is_node g'' (snd (fst i)).
Proof.
  exists g0, (1, 2, 0), (draw 200 201 202 10), (draw 0 0 0 0). cbn [fst snd].
  do 2 eexists. split; [exact g0_wf|]. split; [exact g0_acyclic|]. split; [exact g0_typed|].
  split; [vm_compute; tauto|].
  assert (Hd : In (2, mkND (bs 103) VariablePowerSplitter) (g_nodes g0)) by (vm_compute; tauto).
  split; [exists (mkND (bs 103) VariablePowerSplitter); split; [exact Hd|reflexivity]|].
  split; [apply draws_okb_ok; vm_compute; reflexivity|]. split; [vm_compute; reflexivity|]. split; [vm_compute; reflexivity|].
  split; [eexists; exact Hd|]. intros (d & H). vm_compute in H.
  repeat match goal with H : _ \/ _ |- _ => destruct H as [H|H]; [discriminate|] end. exact H.
Qed.

(* the offered locations can always be computed on an acyclic graph *)
Lemma locations_total : forall L o g, wf g -> acyclic g -> exists locs, possible_locations L o g = Some locs.
Proof.
  intros L o g W A; destruct o; simpl; try (eexists; reflexivity).
  unfold parallel_locations. destruct (toposort_some g W A) as (t & -> & _). eexists; reflexivity.
Qed.

Lemma run_order : forall L g os g', evo_run L g os g' -> wf g -> acyclic g ->
  acyclic g' /\ exists o, topological_sort g' = Some o /\ valid_order g' o.
Proof.
  intros L g os g' R W A. destruct (run_wf_acyclic L g os g' R W A) as [W' A']. split; [exact A'|apply toposort_some; assumption].
Qed.

Lemma run_terminals_paths : forall L g os g', evo_run L g os g' -> wf g -> acyclic g ->
  (forall n, no_input g' n <-> no_input g n) /\ (forall n, no_output g' n <-> no_output g n) /\
  (forall n c, no_input g n \/ no_output g n -> (model_at g n c <-> model_at g' n c)) /\
  (forall n, is_node g' n -> exists s t, no_input g' s /\ no_output g' t /\ path g' s n /\ path g' n t).
Proof.
  intros L g os g' R W A. destruct (run_terminals L g os g' R W A) as (T1 & T2 & T3).
  destruct (run_wf_acyclic L g os g' R W A) as [W' A'].
  split; [exact T1|]. split; [exact T2|]. split; [exact T3|]. intros n Hn.
  destruct (from_source g' n W' A' Hn) as (s & Hs & Ps). destruct (to_sink g' n W' A' Hn) as (t & Ht & Pt).
  exists s, t; auto.
Qed.
