(** Concrete worlds for the evolver and parameter theorems. *)
From Coq Require Import List Arith Bool Lia ZArith QArith Permutation.
From Verif Require Import Base GraphModel GraphSpec GraphProofs TopoProofs OperatorsModel OperatorsSpec OperatorsProofs EvolutionProofs
  TypingProofs EffectsProofs InitSpec InitProofs ScriptModel ParamsModel ParamsSpec EvolverModel EvolverSpec EvolveSpec ParamsProofs SamplingProofs
  MatrixProofs EvolverProofs HessianProofs ChoiceProofs EvolveProofs LineageProofs HessianEvolverProofs BuildProofs EvolutionExamples.
Import ListNotations.
Local Open Scope nat_scope.

Definition no_world : world := mkW empty_graph (mkStore [] []) 0 0 None None.
Definition the (r : res world) : world := match r with Ok w => w | Err _ => no_world end.

Lemma ops_nodup : NoDup evo_op_list.
Proof. repeat constructor; simpl; intuition discriminate. Qed.

(** laser, splitter, two modulators in parallel, splitter, detector *)
Definition w0 : world := the (new_world nodes0 edges0 1 2).
Lemma w0_built : new_world nodes0 edges0 1 2 = Ok w0.
Proof. vm_compute; reflexivity. Qed.
Lemma objects0_nodup : NoDup (map (fun p => cid (snd p)) nodes0 ++ map (fun p => cid (snd p)) edges0).
Proof. simpl; repeat constructor; simpl; intuition discriminate. Qed.
Lemma w0_healthy : healthy w0.
Proof.
  destruct (new_healthy nodes0 edges0 1 2 nodes0_nodup g0 g0_built g0_typed objects0_nodup) as (w & E & H).
  rewrite w0_built in E. injection E as <-. apply H.
Qed.
Lemma w0_graph : w_graph w0 = g0.
Proof. vm_compute; reflexivity. Qed.

(* the same with a chain of three components *)
Definition wc : world := the (new_world nodes0 chain_edges 1 2).

Definition write_at (w : world) (i k : nat) (v : Q) : world :=
  match write_param (w_store w) i k (Num v) with Ok s => with_store w s | Err _ => w end.

Definition ch0 (u : Q) (id : nat) : chance := mkCh u (fun l => l) (draw (10 * id) (10 * id + 1) (10 * id + 2) id) id.

(* decidable version of fair for a shuffle that is the identity *)
Definition fairb (L : library) (ops : list op) (w : world) (ev : evolver) (gen : option Q) (u : Q) (d : draws) : bool :=
  Qle_bool 0 u && negb (Qle_bool 1 u) &&
  match pick L ops (prepare ev gen) (w_graph w) (w_store w) (w_hess w) (fun l => l) u with
  | Ok (l, o) => draws_okb L o (w_graph w) l d
  | Err _ => true
  end.
Lemma fairb_fair : forall L ops w ev gen u d id, fairb L ops w ev gen u d = true ->
  fair L ops w (mkCall ev gen (mkCh u (fun l => l) d id)).
Proof.
  intros L ops w ev gen u d id H. unfold fairb in H. rewrite !andb_true_iff in H. destruct H as [[H1 H2] H3].
  unfold fair. cbn [c_ch c_ev c_gen ch_u ch_shuffle ch_draws]. split; [apply Qle_bool_iff; exact H1|].
  split. { destruct (Qlt_le_dec u 1) as [X|X]; [exact X|]. apply Qle_bool_iff in X. rewrite X in H2. discriminate. }
  split; [intros; apply Permutation_refl|]. intros l o E. rewrite E in H3. apply draws_okb_ok; exact H3.
Qed.

(* two evolution steps from w0 *)
Definition call1 := mkCall Lookup None (ch0 (99 # 100) 20).
Definition w1 : world := fst (do_call default_library evo_op_list w0 call1).
Definition call2 := mkCall Lookup None (ch0 (1 # 3) 21).
Definition w2 : world := fst (do_call default_library evo_op_list w1 call2).
Lemma call1_fair : fair default_library evo_op_list w0 call1.
Proof. apply fairb_fair; vm_compute; reflexivity. Qed.
Lemma call2_fair : fair default_library evo_op_list w1 call2.
Proof. apply fairb_fair; vm_compute; reflexivity. Qed.
Lemma two_calls : exists o1 o2, calls default_library evo_op_list w0 [(w0, call1, Ok o1, w1); (w1, call2, Ok o2, w2)] w2 /\
  [w_cur w0; w_cur w1; w_cur w2] = [1; 20; 21] /\ [w_parent w1; w_parent w2] = [1; 20] /\ w_mut w1 = Some o1 /\ w_mut w2 = Some o2 /\
  w_graph w1 <> w_graph w0 /\ w_graph w2 <> w_graph w1.
Proof.
  exists AddSeries, Remove. split.
  - eapply calls_cons with (w' := w1); [vm_compute; reflexivity|]. eapply calls_cons with (w' := w2); [vm_compute; reflexivity|constructor].
  - repeat (split; [vm_compute; reflexivity|]). split; vm_compute; congruence.
Qed.

(** a bound violation that the closing assertion does not see: modulation frequency 999 GHz *)
Definition wbad : world := write_at w0 105 1 (999000000000 # 1).
Definition wbad' : world := fst (do_call default_library evo_op_list wbad call1).
Lemma not_within : forall g s i o ps k v lo hi, used g i -> has s i o ps -> free o k -> nth_error ps k = Some (Num v) ->
  nth_error (o_lo o) k = Some (Num lo) -> nth_error (o_hi o) k = Some (Num hi) -> (v < lo \/ hi < v)%Q -> ~ all_within g s.
Proof.
  intros g s i o ps k v lo hi U H F Ev El Eh B Al. destruct (Al i U) as (o' & ps' & H' & P). destruct (has_fun _ _ _ _ _ _ H H') as [<- <-].
  destruct (P k F) as (v' & lo' & hi' & E1 & E2 & E3 & L1 & L2). rewrite Ev in E1. injection E1 as <-. rewrite El in E2. injection E2 as <-.
  rewrite Eh in E3. injection E3 as <-. destruct B as [B|B]; eapply Qlt_not_le; eassumption.
Qed.

Definition first_obj (s : store) (i : nat) : obj :=
  match assoc i (s_objs s) with Some o => o | None => mkObj 0 true [] [] [] [] [] 0 end.
Definition params_of (s : store) (i : nat) : list pval :=
  match assoc (o_list (first_obj s i)) (s_lists s) with Some l => l | None => [] end.

Lemma assertion_misses : exists w c w' o, wf (w_graph w) /\ acyclic (w_graph w) /\ typed (w_graph w) /\
  fair default_library evo_op_list w c /\ do_call default_library evo_op_list w c = (w', Ok o) /\
  ~ all_within (w_graph w) (w_store w) /\ ~ all_within (w_graph w') (w_store w').
Proof.
  assert (G : w_graph wbad = g0) by (vm_compute; reflexivity).
  exists wbad, call1, wbad', AddSeries. rewrite G. split; [exact g0_wf|]. split; [exact g0_acyclic|]. split; [exact g0_typed|].
  split; [apply fairb_fair; vm_compute; reflexivity|]. split; [vm_compute; reflexivity|].
  split.
  - eapply (not_within _ _ 105 (first_obj (w_store wbad) 105) (params_of (w_store wbad) 105) 1).
    + exists (mkComp 105 PhaseModulator false), (PEdge (1, 2, 0)). split; [|reflexivity]. eexists. split; [right; left; reflexivity|]. split; reflexivity.
    + split; vm_compute; reflexivity.
    + split; vm_compute; reflexivity.
    + vm_compute; reflexivity.
    + vm_compute; reflexivity.
    + vm_compute; reflexivity.
    + right. vm_compute. reflexivity.
  - eapply (not_within _ _ 105 (first_obj (w_store wbad') 105) (params_of (w_store wbad') 105) 1).
    + exists (mkComp 105 PhaseModulator false), (PEdge (1, 2, 0)). split; [|reflexivity].
      exists (mkE 1 2 0 (mkED (mkComp 105 PhaseModulator false) PhaseModulator)). split; [vm_compute; tauto|split; reflexivity].
    + split; vm_compute; reflexivity.
    + split; vm_compute; reflexivity.
    + vm_compute; reflexivity.
    + vm_compute; reflexivity.
    + vm_compute; reflexivity.
    + right. vm_compute. reflexivity.
Qed.

(** a violation it does see: laser power 1 W; the graph has been changed all the same *)
Definition whot : world := write_at wc 104 0 (1 # 1).
Definition call3 := mkCall Lookup None (ch0 (1 # 2) 20).
Lemma assertion_fires : exists w c w', wf (w_graph w) /\ acyclic (w_graph w) /\ typed (w_graph w) /\
  fair default_library evo_op_list w c /\ do_call default_library evo_op_list w c = (w', Err AssertionError) /\
  w_graph w' <> w_graph w /\ w_cur w' = w_cur w /\ w_parent w' = w_parent w /\ w_mut w' = w_mut w.
Proof.
  assert (G : w_graph whot = gc0) by (vm_compute; reflexivity).
  destruct (init_graph_some nodes0 chain_edges gc0 nodes0_nodup gc0_built) as (W & A & _).
  exists whot, call3, (fst (do_call default_library evo_op_list whot call3)). rewrite G. split; [exact W|]. split; [exact A|].
  split; [apply typedb_typed; [exact W|vm_compute; reflexivity]|].
  split; [apply fairb_fair; vm_compute; reflexivity|]. split; [vm_compute; reflexivity|].
  split; [vm_compute; congruence|]. repeat split; vm_compute; reflexivity.
Qed.

(** the smallest protected system: laser, splitter, detector *)
Definition min_nodes : list (node * comp) := [(0, mkComp 100 TerminalSource true); (1, mkComp 102 VariablePowerSplitter true); (2, mkComp 101 TerminalSink true)].
Definition min_edges : list (eid * comp) :=
  [((0, 1, 0), mkComp 104 ContinuousWaveLaser true); ((1, 2, 0), mkComp 107 Photodiode true)].
Definition wmin : world := with_hess (the (new_world min_nodes min_edges 1 2)) (Some [[1%Q]]).
Lemma wmin_ok : wf (w_graph wmin) /\ acyclic (w_graph wmin) /\ typed (w_graph wmin) /\
  map (fun o => length (places default_library (w_graph wmin) o)) evo_op_list = [2; 0; 0; 0].
Proof.
  assert (B : init_graph min_nodes min_edges = Some (w_graph wmin)) by (vm_compute; reflexivity).
  destruct (init_graph_some min_nodes min_edges (w_graph wmin)) as (W & A & _);
    [simpl; repeat constructor; simpl; intuition discriminate|exact B|].
  split; [exact W|]. split; [exact A|]. split; [apply typedb_typed; [exact W|vm_compute; reflexivity]|]. vm_compute; reflexivity.
Qed.
Lemma wmin_last : forall u, pick default_library evo_op_list (Hessian (hessian_weight 1)) (w_graph wmin) (w_store wmin) (w_hess wmin) (fun l => l) u = Err RuntimeWarning.
Proof.
  destruct wmin_ok as (W & A & _ & Pl). intros u. apply hessian_last_fails; [exact W|exact A|exact ops_nodup|intros; apply Permutation_refl| |].
  - eexists; vm_compute; reflexivity.
  - intros o _ Ap. unfold applicable in Ap. destruct o; [left; reflexivity|right; reflexivity| |]; exfalso; apply Ap; vm_compute; reflexivity.
Qed.

(** laser and detector on one splitter, nothing protected; one free parameter *)
Definition small_edges : list (eid * comp) :=
  [((0, 1, 0), mkComp 104 ContinuousWaveLaser false); ((1, 2, 0), mkComp 107 Photodiode false)].
Definition small_nodes : list (node * comp) := [(0, src_node); (1, bs 102); (2, snk_node)].
Definition whess : world := with_hess (the (new_world small_nodes small_edges 1 2)) (Some [[2%Q]]).

(** one component object on two edges *)
Definition twin_edges : list (eid * comp) :=
  [((0, 1, 0), mkComp 104 ContinuousWaveLaser false);
   ((1, 2, 0), mkComp 105 PhaseModulator false);
   ((1, 2, 1), mkComp 105 PhaseModulator false);
   ((2, 3, 0), mkComp 107 Photodiode false)].
Definition wtwin : world := the (new_world nodes0 twin_edges 1 2).
Definition vec (l : list Z) : list pval := map (fun z => Num (inject_Z z)) l.

Definition readableb (g : graph) (s : store) : bool :=
  forallb (fun i => match assoc i (s_objs s) with
    | Some o => match assoc (o_list o) (s_lists s) with
                | Some ps => forallb (fun n => Nat.leb (length (o_locks o)) n)
                    [length ps; length (o_lo o); length (o_hi o); length (o_types o); length (o_steps o)]
                | None => false end
    | None => false end) (used_ids g).
Lemma readableb_ok : forall g s, readableb g s = true -> all_readable g s.
Proof.
  intros g s H i U. unfold readableb in H. rewrite forallb_forall in H. apply used_ids_In in U. specialize (H i U).
  destruct (assoc i (s_objs s)) as [o|] eqn:E; [|discriminate]. destruct (assoc (o_list o) (s_lists s)) as [ps|] eqn:E'; [|discriminate].
  exists o, ps. split; [split; assumption|]. intros k [_ F]. assert (K : k < length (o_locks o)) by (apply nth_error_Some; congruence).
  cbn [forallb] in H. rewrite !andb_true_iff, !Nat.leb_le in H. lia.
Qed.

Lemma shared_object : exists g s x vs s' x', wf g /\ all_readable g s /\ extract g s = Ok x /\ length vs = length (x_params x) /\
  distribute vs (x_models x) (x_index x) s = Ok s' /\ extract g s' = Ok x' /\ x_params x' <> vs.
Proof.
  assert (B : init_graph nodes0 twin_edges = Some (w_graph wtwin)) by (vm_compute; reflexivity).
  destruct (init_graph_some nodes0 twin_edges (w_graph wtwin) nodes0_nodup B) as (W & A & _).
  exists (w_graph wtwin), (w_store wtwin). do 4 eexists. split; [exact W|]. split.
  - apply readableb_ok. vm_compute; reflexivity.
  - split; [vm_compute; reflexivity|]. split; [instantiate (1 := vec [0; 1; 2; 3; 4; 5; 6; 7]%Z); vm_compute; reflexivity|].
    split; [vm_compute; reflexivity|]. split; [vm_compute; reflexivity|]. vm_compute; congruence.
Qed.

Lemma rounding_leaves : exists low up st r, (low <= up)%Q /\ (0 < st)%Q /\ (0 <= r_frac r)%Q /\ (r_frac r < 1)%Q /\
  exists v, uniform_sample (Num low) (Num up) (Some st) DFloat r = Ok (Num v) /\ (v < low)%Q.
Proof. exists (1 # 4), (2 # 5), 1%Q, (mkRnd (1 # 2) 0). repeat split; try (vm_compute; congruence). exists 0%Q. split; vm_compute; reflexivity. Qed.
