(** C65: which simulations of a graph made of the components succeed.
    C66: how strong the fields in it can be. *)
From Coq Require Import Reals Qreals List Arith Bool Lia Lra ZArith QArith Permutation.
From Verif Require Import Base GraphModel GraphSpec GraphProofs TopoProofs OperatorsModel OperatorsSpec OperatorsProofs EvolutionProofs TypingProofs InitProofs ParamsModel ParamsSpec EvolverModel EvolverSpec EvolveSpec BuildProofs
  PropagateModel PropagateSpec PropagateProofs FlowSpec FlowProofs Complex ArrayModel ComponentModel ComponentSpec MoreComponentsSpec ComponentProofs
  OpticsModel OpticsSpec OpticsSessionProofs OpticsComponentProofs OpticsProofs StrengthProofs NetworkProofs OpticsBoundProofs EvolutionExamples EvolverExamples.
Import ListNotations.
Local Open Scope nat_scope.

(** ** C65 *)
Theorem C65_parameters : forall L ops nodes edges cur parent g w0 w, lib_ok L -> NoDup ops -> NoDup (map fst nodes) ->
  NoDup (map (fun p => cid (snd p)) nodes ++ map (fun p => cid (snd p)) edges) ->
  init_graph nodes edges = Some g -> typed g -> new_world nodes edges cur parent = Ok w0 -> session L ops w0 w ->
  furnished (w_graph w) (w_store w).
Proof. exact session_furnished. Qed.
Print Assumptions C65_parameters.

Theorem C65_exact : forall st p g src n old, wf g -> acyclic g -> typed g -> furnished g st ->
  usable (n_samples p) (window_t p) -> length src = n_samples p -> bin_spans (n_samples p) (window_t p) n ->
  (snd (simulate st p g src old) = Ok tt <-> single_feed g /\ ~ blocked g st /\ (contains g WaveShaper -> shapeable (n_samples p) n)) /\
  (snd (simulate st p g src old) = Ok tt -> forall pl s, saved (fst (simulate st p g src old)) pl = Some s -> length s = n_samples p).
Proof. intros st p g src n old W A T Fu U Ls Hn. exact (simulate_exact st p g src n W A T Fu U Ls Hn old). Qed.
Print Assumptions C65_exact.

Theorem C65_session : forall L ops nodes edges cur parent g w0 w p src n old, lib_ok L -> NoDup ops -> NoDup (map fst nodes) ->
  NoDup (map (fun p => cid (snd p)) nodes ++ map (fun p => cid (snd p)) edges) ->
  init_graph nodes edges = Some g -> typed g -> new_world nodes edges cur parent = Ok w0 -> session L ops w0 w ->
  usable (n_samples p) (window_t p) -> length src = n_samples p -> bin_spans (n_samples p) (window_t p) n ->
  let outcome := simulate (w_store w) p (w_graph w) src old in
  (snd outcome = Ok tt <-> single_feed g /\ ~ blocked (w_graph w) (w_store w) /\ (contains (w_graph w) WaveShaper -> shapeable (n_samples p) n)) /\
  (snd outcome = Ok tt -> forall pl s, saved (fst outcome) pl = Some s -> length s = n_samples p).
Proof.
  intros L ops nodes edges cur parent g w0 w p src n old LO OND ND DO Hi T Hw Hs U Ls Hn outcome.
  destruct (session_healthy L ops nodes edges cur parent g w0 w LO OND ND DO Hi T Hw Hs) as (((W & A & Ty & _) & _) & os & _ & Rn).
  destruct (init_graph_some nodes edges g ND Hi) as (Wg & Ag & _). rewrite <- (run_single_feed L g os (w_graph w) Rn Wg Ag).
  apply C65_exact; [exact W|exact A|exact Ty| |exact U|exact Ls|exact Hn]. exact (session_furnished L ops nodes edges cur parent g w0 w LO OND ND DO Hi T Hw Hs).
Qed.
Print Assumptions C65_session.

(* the settings of the grid in the examples: 8 samples in 8 picoseconds *)
Definition grid8 : grid := mkGrid 8 (8 * / 10 ^ 12) (2 * 10 ^ 14).
Lemma grid8_usable : usable (n_samples grid8) (window_t grid8).
Proof. unfold usable. cbn [n_samples window_t grid8]. split; [lia|]. apply Rmult_lt_0_compat; [lra|]. apply Rinv_0_lt_compat. apply pow_lt. lra. Qed.
Lemma grid8_bins : bin_spans (n_samples grid8) (window_t grid8) 0.
Proof. unfold bin_spans. cbn [n_samples window_t grid8 Nat.sub]. change (INR 0) with 0%R. rewrite (INR_IZR_INZ 8), (INR_IZR_INZ 7). cbn [Z.of_nat Pos.of_succ_nat Pos.succ]. cbn [pow]. split; lra. Qed.
Definition dark8 : list C := repeat C0 8.

Lemma session_g0 : forall w, session default_library evo_op_list w0 w -> furnished (w_graph w) (w_store w).
Proof. intros w H. exact (C65_parameters default_library evo_op_list nodes0 edges0 1 2 g0 w0 w default_lib_ok ops_nodup nodes0_nodup objects0_nodup g0_built g0_typed w0_built H). Qed.

Lemma single_feed_check : forall g, (forallb (fun n => existsb (fun e => e_dst e =? n) (g_edges g) || (departures g n <=? 1)) (map fst (g_nodes g)) = true) -> single_feed g.
Proof.
  intros g H n [(d & Hn) Hi]. rewrite forallb_forall in H. specialize (H n (in_map fst _ _ Hn)). apply orb_true_iff in H as [H|H]; [|apply Nat.leb_le; exact H].
  apply existsb_exists in H as (e & He & E). apply Nat.eqb_eq in E. exfalso. exact (Hi e He E).
Qed.

(* laser, splitter, phase modulator beside wave shaper, splitter, photodiode: it can be simulated *)
Example C65_case : furnished (w_graph w0) (w_store w0) /\ contains (w_graph w0) WaveShaper /\ shapeable 8 0 /\ ~ blocked (w_graph w0) (w_store w0) /\
  snd (simulate (w_store w0) grid8 (w_graph w0) dark8 []) = Ok tt.
Proof.
  assert (Fu := session_g0 w0 (ses_start _ _ _)). split; [exact Fu|]. split.
  { rewrite w0_graph. eexists. split; [vm_compute; right; right; left; reflexivity|reflexivity]. }
  split; [right; left; lia|]. assert (Nb : ~ blocked (w_graph w0) (w_store w0)).
  { intros (e & o & ps & v & He & Ec & _). rewrite w0_graph in He. vm_compute in He. destruct He as [<-|[<-|[<-|[<-|[]]]]]; discriminate Ec. }
  split; [exact Nb|]. apply (proj1 (C65_session default_library evo_op_list nodes0 edges0 1 2 g0 w0 w0 grid8 dark8 0 [] default_lib_ok ops_nodup nodes0_nodup objects0_nodup g0_built g0_typed w0_built (ses_start _ _ _) grid8_usable eq_refl grid8_bins)).
  split; [apply single_feed_check; vm_compute; reflexivity|]. split; [exact Nb|]. intros _. right; left. cbn. lia.
Qed.

Lemma params_has : forall s i ps, get_params s i = Ok ps -> exists o, has s i o ps.
Proof.
  intros s i ps H. unfold get_params, get_obj, get_list, of_option in H. destruct (assoc i (s_objs s)) as [o|] eqn:Eo; [|discriminate]. cbn [bind] in H.
  destruct (assoc (o_list o) (s_lists s)) as [l|] eqn:El; [|discriminate]. injection H as <-. exists o. split; assumption.
Qed.

(* laser, splitter, square filter, splitter, detector *)
Definition filter_edges : list (eid * comp) :=
  [((0, 1, 0), mkComp 104 ContinuousWaveLaser false); ((1, 2, 0), mkComp 105 SquareFilter false); ((2, 3, 0), mkComp 107 MeasurementDevice false)].
Definition gf : graph := match init_graph nodes0 filter_edges with Some g => g | None => empty_graph end.
Definition wf0 : world := the (new_world nodes0 filter_edges 1 2).
(* its parameters, and the store after writing the lower bounds to them: the width is 0 *)
Definition xf : extracted := Eval vm_compute in match extract (w_graph wf0) (w_store wf0) with Ok x => x | Err _ => x_empty end.
Definition wf1 : world := with_store wf0 (match distribute (x_lo xf) (x_models xf) (x_index xf) (w_store wf0) with Ok s => s | Err _ => w_store wf0 end).
Lemma wf1_session : session default_library evo_op_list wf0 wf1.
Proof.
  apply (ses_write _ _ _ wf0 xf (x_lo xf)); [apply ses_start|vm_compute; reflexivity| |vm_compute; reflexivity].
  split; [reflexivity|]. split; [reflexivity|]. intros k v lo hi H1 H2 H3. rewrite H1 in H2. injection H2 as <-. unfold xf in H1, H3. cbn [x_lo x_hi] in H1, H3.
  repeat (destruct k as [|k]; [cbn [nth_error] in H1, H3; injection H1 as <-; injection H3 as <-; eexists; eexists; eexists; repeat (split; [reflexivity|]); split; vm_compute; discriminate|cbn [nth_error] in H1, H3]); destruct k; discriminate.
Qed.
(* a user starts from a graph that can be simulated and writes a vector within the bounds;
   then the simulation raises *)
Theorem C65_within_bounds_refuted : exists nodes edges g w0 w p src,
  NoDup (map fst nodes) /\ NoDup (map (fun p => cid (snd p)) nodes ++ map (fun p => cid (snd p)) edges) /\ init_graph nodes edges = Some g /\ typed g /\ new_world nodes edges 1 2 = Ok w0 /\
  session default_library evo_op_list w0 w /\ usable (n_samples p) (window_t p) /\ length src = n_samples p /\
  snd (simulate (w_store w0) p (w_graph w0) src []) = Ok tt /\ snd (simulate (w_store w) p (w_graph w) src []) <> Ok tt.
Proof.
  exists nodes0, filter_edges, gf, wf0, wf1, grid8, dark8.
  assert (D : NoDup (map (fun p => cid (snd p)) nodes0 ++ map (fun p => cid (snd p)) filter_edges)) by (simpl; repeat constructor; simpl; intuition discriminate).
  assert (I : init_graph nodes0 filter_edges = Some gf) by (vm_compute; reflexivity).
  assert (T : typed gf) by (apply typedb_typed; [exact (proj1 (init_graph_some nodes0 filter_edges gf nodes0_nodup I))|vm_compute; reflexivity]).
  assert (N : new_world nodes0 filter_edges 1 2 = Ok wf0) by (vm_compute; reflexivity).
  split; [exact nodes0_nodup|]. split; [exact D|]. split; [exact I|]. split; [exact T|]. split; [exact N|]. split; [exact wf1_session|]. split; [exact grid8_usable|]. split; [reflexivity|].
  assert (K : forall w, session default_library evo_op_list wf0 w -> (snd (simulate (w_store w) grid8 (w_graph w) dark8 []) = Ok tt <-> single_feed gf /\ ~ blocked (w_graph w) (w_store w) /\ (contains (w_graph w) WaveShaper -> shapeable (n_samples grid8) 0))).
  { intros w H. exact (proj1 (C65_session default_library evo_op_list nodes0 filter_edges 1 2 gf wf0 w grid8 dark8 0 [] default_lib_ok ops_nodup nodes0_nodup D I T N H grid8_usable eq_refl grid8_bins)). }
  split.
  - apply (K wf0 (ses_start _ _ _)). split; [apply single_feed_check; vm_compute; reflexivity|]. split.
    + intros (e & o & ps & v & He & Ec & Hh & Ev & Z). vm_compute in He. destruct He as [<-|[<-|[<-|[]]]]; try discriminate Ec. apply has_params in Hh. vm_compute in Hh. injection Hh as <-. vm_compute in Ev. injection Ev as <-. destruct Z as (q & Eq & Z). injection Eq as <-. vm_compute in Z. discriminate.
    + intros (e & He & Ec). vm_compute in He. destruct He as [<-|[<-|[<-|[]]]]; discriminate Ec.
  - intros H. apply (K wf1 wf1_session) in H as (_ & Nb & _). apply Nb.
    destruct (params_has (w_store wf1) 105 [dec 0 0]) as (o & Hh); [vm_compute; reflexivity|].
    eexists. exists o, [dec 0 0], (dec 0 0). split; [vm_compute; right; left; reflexivity|]. split; [reflexivity|]. split; [exact Hh|]. split; [reflexivity|exists (Qmake 0 1); split; reflexivity].
Qed.
Print Assumptions C65_within_bounds_refuted.

(** ** C66 *)
Local Open Scope R_scope.
Theorem C66_bound : forall st p g src n old K starts ends, wf g -> acyclic g -> typed g -> furnished g st ->
  usable (n_samples p) (window_t p) -> length src = n_samples p -> bin_spans (n_samples p) (window_t p) n ->
  (contains g WaveShaper -> n_samples p <> 2%nat) -> (contains g ProgrammableFilter -> fine_grid (n_samples p) (window_t p)) ->
  snd (simulate st p g src old) = Ok tt -> route_bound g st K -> lists (starting g) starts -> lists (ending g) ends ->
  exists val, (forall e, In e (g_edges g) -> saved (fst (simulate st p g src old)) (PEdge (e_src e, e_dst e, e_key e)) = Some (val e)) /\
    total ends (fun e => detected e (val e)) <= K * total starts (fun e => strength (val e)) /\
    (forall m, is_node g m -> ~ no_input g m -> ~ no_output g m -> total (arriving g m) (fun e => strength (val e)) <= K * total starts (fun e => strength (val e))) /\
    (forall e, In e (g_edges g) -> ~ no_output g (e_dst e) -> strength (val e) <= K * total starts (fun e => strength (val e))).
Proof.
  intros st p g src n old K starts ends W A T Fu U Ls Hn Sh Fi Ok0 Kb L1 L2. unfold simulate in *. destruct (propagate (optics st p) g src tt old) as [[x sv] r] eqn:E. cbn [fst snd] in *. subst r.
  destruct (proj1 (propagate_solution (optics st p) g src W tt old (kind_steady (optics st p) g) A) x sv E) as (_ & val & out & Sol & Rc & _).
  destruct (network_bound st p g src n W A T Fu U Ls Hn Sh Fi val out K starts ends Sol Kb L1 L2) as [B1 B2].
  exists val. split; [exact Rc|]. split; [exact B1|]. split; [exact B2|]. intros e He No. destruct (wf_ends g W e He) as [_ Nd].
  assert (Ni : ~ no_input g (e_dst e)) by (intros [_ X]; exact (X e He eq_refl)). eapply Rle_trans; [|apply (B2 (e_dst e) Nd Ni No)].
  apply (total_term (arriving g (e_dst e)) (fun e => strength (val e))); [apply (In_arriving g (e_dst e) e W); auto|intros; apply strength_nonneg].
Qed.
Print Assumptions C66_bound.

Lemma passive_routes : forall g st, wf g -> ~ contains g OpticalAmplifier -> ~ contains g IntegratedSplitAndDelayLine -> (forall n c, model_at g n c -> ccls c <> FrequencySplitter) -> route_bound g st 1.
Proof.
  intros g st W H1 H2 H3 e0 l _. assert (G : forall l n, chain g n l -> chain_limit g st n l = 1).
  { assert (N : forall n, node_limit g n = 1).
    { intros n. unfold node_limit. destruct (find _ (g_nodes g)) as [[m d]|] eqn:E; [|reflexivity]. apply find_some in E as [E1 E2]. cbn [fst] in E2. apply Nat.eqb_eq in E2. subst m.
      assert (Ne := H3 n (n_model d) (ex_intro _ d (conj E1 eq_refl))). destruct (ccls (n_model d)); try reflexivity. exfalso; apply Ne; reflexivity. }
    induction l0 as [|e l0 IH]; intros n C; cbn [chain_limit]; rewrite N; [ring|]. destruct C as (He & _ & _ & C). rewrite (IH _ C).
    assert (Lm : limit_of st e = 1); [|rewrite Lm; ring]. unfold limit_of. destruct (get_params st (cid (e_model (e_dat e)))) as [ps|]; [|reflexivity].
    assert (N1 : ccls (e_model (e_dat e)) <> OpticalAmplifier) by (intros X; apply H1; exists e; auto). assert (N2 : ccls (e_model (e_dat e)) <> IntegratedSplitAndDelayLine) by (intros X; apply H2; exists e; auto).
    destruct (ccls (e_model (e_dat e))); try reflexivity; [exfalso; apply N2; reflexivity|exfalso; apply N1; reflexivity] || (exfalso; first [apply N1; reflexivity|apply N2; reflexivity]). }
  intros C. rewrite (G l _ C). lra.
Qed.

(* without amplifiers, split-and-delay lines and frequency splitters nothing is gained *)
Theorem C66_passive : forall st p g src n old starts ends, wf g -> acyclic g -> typed g -> furnished g st ->
  usable (n_samples p) (window_t p) -> length src = n_samples p -> bin_spans (n_samples p) (window_t p) n ->
  (contains g WaveShaper -> n_samples p <> 2%nat) -> (contains g ProgrammableFilter -> fine_grid (n_samples p) (window_t p)) ->
  ~ contains g OpticalAmplifier -> ~ contains g IntegratedSplitAndDelayLine -> (forall n c, model_at g n c -> ccls c <> FrequencySplitter) ->
  snd (simulate st p g src old) = Ok tt -> lists (starting g) starts -> lists (ending g) ends ->
  exists val, (forall e, In e (g_edges g) -> saved (fst (simulate st p g src old)) (PEdge (e_src e, e_dst e, e_key e)) = Some (val e)) /\
    total ends (fun e => detected e (val e)) <= total starts (fun e => strength (val e)) /\
    (forall e, In e (g_edges g) -> ~ no_output g (e_dst e) -> strength (val e) <= total starts (fun e => strength (val e))).
Proof.
  intros st p g src n old starts ends W A T Fu U Ls Hn Sh Fi H1 H2 H3 Ok0 L1 L2.
  destruct (C66_bound st p g src n old 1 starts ends W A T Fu U Ls Hn Sh Fi Ok0 (passive_routes g st W H1 H2 H3) L1 L2) as (val & V & B1 & _ & B3).
  rewrite Rmult_1_l in *. exists val. split; [exact V|]. split; [exact B1|]. intros e He No. pose proof (B3 e He No). lra.
Qed.
Print Assumptions C66_passive.

Theorem C66_session : forall L ops nodes edges cur parent g w0 w p src n old K starts ends, lib_ok L -> NoDup ops -> NoDup (map fst nodes) ->
  NoDup (map (fun p => cid (snd p)) nodes ++ map (fun p => cid (snd p)) edges) ->
  init_graph nodes edges = Some g -> typed g -> new_world nodes edges cur parent = Ok w0 -> session L ops w0 w ->
  usable (n_samples p) (window_t p) -> length src = n_samples p -> bin_spans (n_samples p) (window_t p) n ->
  (contains (w_graph w) WaveShaper -> n_samples p <> 2%nat) -> (contains (w_graph w) ProgrammableFilter -> fine_grid (n_samples p) (window_t p)) ->
  let outcome := simulate (w_store w) p (w_graph w) src old in
  snd outcome = Ok tt -> route_bound (w_graph w) (w_store w) K -> lists (starting (w_graph w)) starts -> lists (ending (w_graph w)) ends ->
  exists val, (forall e, In e (g_edges (w_graph w)) -> saved (fst outcome) (PEdge (e_src e, e_dst e, e_key e)) = Some (val e)) /\
    total ends (fun e => detected e (val e)) <= K * total starts (fun e => strength (val e)) /\
    (forall e, In e (g_edges (w_graph w)) -> ~ no_output (w_graph w) (e_dst e) -> strength (val e) <= K * total starts (fun e => strength (val e))).
Proof.
  intros L ops nodes edges cur parent g w0 w p src n old K starts ends LO OND ND DO Hi T Hw Hs U Ls Hn Sh Fi outcome Ok0 Kb L1 L2.
  destruct (session_healthy L ops nodes edges cur parent g w0 w LO OND ND DO Hi T Hw Hs) as (((W & A & Ty & _) & _) & _).
  assert (Fu := session_furnished L ops nodes edges cur parent g w0 w LO OND ND DO Hi T Hw Hs).
  destruct (C66_bound (w_store w) p (w_graph w) src n old K starts ends W A Ty Fu U Ls Hn Sh Fi Ok0 Kb L1 L2) as (val & V & B1 & _ & B3). exists val. auto.
Qed.
Print Assumptions C66_session.

(* laser, splitter, amplifier of 30 dB, splitter, detector: the detector receives at most
   10 ^ 1.5 times the strength of the laser *)
Definition amp_edges : list (eid * comp) :=
  [((0, 1, 0), mkComp 104 ContinuousWaveLaser false); ((1, 2, 0), mkComp 105 OpticalAmplifier false); ((2, 3, 0), mkComp 107 MeasurementDevice false)]%nat.
Definition ga : graph := match init_graph nodes0 amp_edges with Some g => g | None => empty_graph end.
Definition wa : world := the (new_world nodes0 amp_edges 1 2).
Definition no_edge : edge := (mkE 0 0 0 (mkED (mkComp 0 Impulse false) Impulse))%nat.
Definition laser_edge : edge := Eval vm_compute in nth 0 (g_edges ga) no_edge.
Definition amp_edge : edge := Eval vm_compute in nth 1 (g_edges ga) no_edge.
Definition meter_edge : edge := Eval vm_compute in nth 2 (g_edges ga) no_edge.
Lemma no_out_ga : forall n, no_output ga n <-> n = 3%nat.
Proof.
  intros n. split.
  - intros [(d & Hd) H]. vm_compute in Hd. destruct Hd as [Hd|[Hd|[Hd|[Hd|[]]]]]; injection Hd as <- _; [| | |reflexivity]; exfalso.
    + apply (H laser_edge); [vm_compute; auto|reflexivity].
    + apply (H amp_edge); [vm_compute; auto|reflexivity].
    + apply (H meter_edge); [vm_compute; auto|reflexivity].
  - intros ->. split; [eexists; vm_compute; right; right; right; left; reflexivity|]. intros e He Q. vm_compute in He. destruct He as [<-|[<-|[<-|[]]]]; discriminate Q.
Qed.
Lemma no_in_ga : forall n, no_input ga n <-> n = 0%nat.
Proof.
  intros n. split.
  - intros [(d & Hd) H]. vm_compute in Hd. destruct Hd as [Hd|[Hd|[Hd|[Hd|[]]]]]; injection Hd as <- _; [reflexivity| | |]; exfalso.
    + apply (H laser_edge); [vm_compute; auto|reflexivity].
    + apply (H amp_edge); [vm_compute; auto|reflexivity].
    + apply (H meter_edge); [vm_compute; auto|reflexivity].
  - intros ->. split; [eexists; vm_compute; left; reflexivity|]. intros e He Q. vm_compute in He. destruct He as [<-|[<-|[<-|[]]]]; discriminate Q.
Qed.
Example C66_case : exists K, K = Rpower 10 (30 / 20) /\ route_bound (w_graph wa) (w_store wa) K /\ ~ route_bound (w_graph wa) (w_store wa) 1 /\
  snd (simulate (w_store wa) grid8 (w_graph wa) dark8 []) = Ok tt /\
  exists val, (forall e, In e (g_edges (w_graph wa)) -> saved (fst (simulate (w_store wa) grid8 (w_graph wa) dark8 [])) (PEdge (e_src e, e_dst e, e_key e)) = Some (val e)) /\
    sqrt (fold_right (fun z a => fst z + a) 0 (val meter_edge)) <= K * strength (val laser_edge) /\ strength (val amp_edge) <= K * strength (val laser_edge).
Proof.
  exists (Rpower 10 (30 / 20)). split; [reflexivity|].
  assert (D : NoDup (map (fun p => cid (snd p)) nodes0 ++ map (fun p => cid (snd p)) amp_edges)) by (simpl; repeat constructor; simpl; intuition discriminate).
  assert (I : init_graph nodes0 amp_edges = Some ga) by (vm_compute; reflexivity).
  assert (W : wf ga) by exact (proj1 (init_graph_some nodes0 amp_edges ga nodes0_nodup I)).
  assert (T : typed ga) by (apply typedb_typed; [exact W|vm_compute; reflexivity]).
  assert (N : new_world nodes0 amp_edges 1 2 = Ok wa) by (vm_compute; reflexivity).
  assert (Eg : w_graph wa = ga) by (vm_compute; reflexivity). rewrite Eg.
  assert (Lm : limit_of (w_store wa) amp_edge = Rpower 10 (30 / 20)).
  { unfold limit_of. replace (get_params (w_store wa) (cid (e_model (e_dat amp_edge)))) with (Ok (sp_def (spec_of OpticalAmplifier))) by (vm_compute; reflexivity).
    cbn [ccls e_model e_dat amp_edge gain_limit sp_def spec_of]. unfold dec. f_equal. f_equal. cbn. unfold Q2R. cbn. lra. }
  assert (Big : 1 < Rpower 10 (30 / 20)). { rewrite <- (Rpower_O 10) by lra. apply Rpower_lt; lra. }
  assert (N1 : node_limit ga 1 = 1) by (vm_compute; reflexivity). assert (N2 : node_limit ga 2 = 1) by (vm_compute; reflexivity).
  assert (Kb : route_bound ga (w_store wa) (Rpower 10 (30 / 20))).
  { intros e l [He Ni]. apply no_in_ga in Ni. assert (e_dst e = 1%nat) by (vm_compute in He; destruct He as [<-|[<-|[<-|[]]]]; try discriminate Ni; reflexivity). rewrite H. clear e He Ni H.
    destruct l as [|e l]; intros C; cbn [chain_limit]; rewrite N1; [lra|]. destruct C as (He & Es & No & C).
    assert (e = amp_edge) by (vm_compute in He; destruct He as [<-|[<-|[<-|[]]]]; try discriminate Es; reflexivity). subst e. rewrite Lm. change (e_dst amp_edge) with 2%nat in *.
    destruct l as [|e l]; cbn [chain_limit]; rewrite N2; [lra|]. destruct C as (He' & Es' & No' & _). exfalso. apply No'. apply no_out_ga.
    vm_compute in He'. destruct He' as [<-|[<-|[<-|[]]]]; try discriminate Es'; reflexivity. }
  split; [exact Kb|]. split.
  { intros X. specialize (X laser_edge [amp_edge]). cbn [chain_limit chain] in X. rewrite Lm in X. change (e_dst laser_edge) with 1%nat in X. change (e_dst amp_edge) with 2%nat in X. rewrite N1, N2 in X.
    assert (1 * (Rpower 10 (30 / 20) * (1 * 1)) <= 1); [|lra]. apply X.
    - split; [vm_compute; auto|apply no_in_ga; reflexivity].
    - split; [vm_compute; auto|]. split; [reflexivity|]. split; [intros Q; apply no_out_ga in Q; discriminate|exact Logic.I]. }
  assert (Nc : forall c, c = WaveShaper \/ c = ProgrammableFilter \/ c = SquareFilter -> ~ contains ga c).
  { intros c Hc (e & He & Ec). vm_compute in He. destruct He as [<-|[<-|[<-|[]]]]; cbn in Ec; subst c; destruct Hc as [Hc|[Hc|Hc]]; discriminate. }
  assert (Ok0 : snd (simulate (w_store wa) grid8 ga dark8 []) = Ok tt).
  { rewrite <- Eg. apply (proj1 (C65_session default_library evo_op_list nodes0 amp_edges 1 2 ga wa wa grid8 dark8 0 [] default_lib_ok ops_nodup nodes0_nodup D I T N (ses_start _ _ _) grid8_usable eq_refl grid8_bins)). rewrite Eg.
    split; [apply single_feed_check; vm_compute; reflexivity|]. split; [|intros X; exfalso; apply (Nc WaveShaper); auto]. intros (e & o & ps & v & He & Ec & _). apply (Nc SquareFilter); [auto|]. exists e; auto. }
  split; [exact Ok0|].
  assert (L1 : lists (starting ga) [laser_edge]).
  { split; [repeat constructor; auto|]. intros e. split.
    - intros [<-|[]]. split; [vm_compute; auto|apply no_in_ga; reflexivity].
    - intros [He Ni]. apply no_in_ga in Ni. vm_compute in He. destruct He as [<-|[<-|[<-|[]]]]; try discriminate Ni. left; reflexivity. }
  assert (L2 : lists (ending ga) [meter_edge]).
  { split; [repeat constructor; auto|]. intros e. split.
    - intros [<-|[]]. split; [vm_compute; auto|]. split; [intros X; apply no_in_ga in X; discriminate|apply no_out_ga; reflexivity].
    - intros (He & _ & No). apply no_out_ga in No. vm_compute in He. destruct He as [<-|[<-|[<-|[]]]]; try discriminate No. left; reflexivity. }
  rewrite <- Eg in Kb, L1, L2, Ok0, Nc. destruct (C66_session default_library evo_op_list nodes0 amp_edges 1 2 ga wa wa grid8 dark8 0 [] (Rpower 10 (30 / 20)) [laser_edge] [meter_edge] default_lib_ok ops_nodup nodes0_nodup D I T N (ses_start _ _ _) grid8_usable eq_refl grid8_bins) as (val & V & B1 & B2); try assumption.
  - intros X; exfalso; apply (Nc WaveShaper); auto.
  - intros X; exfalso; apply (Nc ProgrammableFilter); auto.
  - rewrite Eg in V, B2. exists val. split; [exact V|]. unfold total in B1, B2. cbn [fold_right] in B1, B2. split.
    + cbn [detected ccls e_model e_dat meter_edge] in B1. unfold detected in B1. cbn [ccls e_model e_dat meter_edge] in B1. fold meter_edge in B1. lra.
    + specialize (B2 amp_edge). rewrite Rplus_0_r in B2. apply B2; [vm_compute; auto|intros Q; apply no_out_ga in Q; discriminate].
Qed.
