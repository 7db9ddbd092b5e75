(** C71: when the phase sensitivity gives a score, and what it leaves behind.
    C72: what the score is.
    C73: the second order sensitivity of graphs that do not hold the evaluator's own
    phase shifters. *)
From Coq Require Import Reals Qreals List Arith Bool Lia Lra ZArith QArith Permutation.
From Verif Require Import Base GraphModel GraphSpec GraphProofs TopoProofs OperatorsModel OperatorsSpec OperatorsProofs EvolutionProofs TypingProofs ScriptModel InitProofs ParamsModel ParamsSpec ParamsProofs EvolverModel EvolverSpec EvolveSpec BuildProofs
  EffectsProofs   PropagateModel PropagateSpec PropagateProofs SessionSaveProofs FlowSpec FlowProofs Complex ArrayModel ComponentModel ComponentSpec MoreComponentsSpec ComponentProofs GridProofs FilterProofs
  OpticsModel OpticsSpec OpticsSessionProofs OpticsComponentProofs OpticsProofs StrengthProofs NetworkProofs OpticsBoundProofs EvolutionExamples EvolverExamples OpticsProperties
  PhaseModel PhaseSpec LinearProofs LinearNetworkProofs PhaseProofs PhaseRunProofs PhaseExamples.
Import ListNotations.
Local Open Scope nat_scope.
Local Open Scope R_scope.

(** ** C71 *)
Lemma phase_models_kind : forall g, phase_models g = of_kind is_shifter g.
Proof. reflexivity. Qed.
Lemma models_edges : forall l : list edge, filter (fun c => cls_eqb (ccls c) PhaseShifter) (map (fun e => e_model (e_dat e)) l) = map (fun e => e_model (e_dat e)) (filter (fun e => cls_eqb (ccls (e_model (e_dat e))) PhaseShifter) l).
Proof. induction l as [|e l IH]; [reflexivity|]. cbn [map filter]. destruct (cls_eqb _ _); cbn [map]; rewrite IH; reflexivity. Qed.
(* one phase model: one phase shifter *)
Lemma one_model : forall g c, phase_models g = [c] -> exists e0, sole_shifter g e0 /\ e_model (e_dat e0) = c.
Proof.
  intros g c H. unfold phase_models in H. rewrite models_edges in H. destruct (filter _ (g_edges g)) as [|e0 [|e1 l]] eqn:E; try discriminate H. injection H as H. exists e0. split; [|exact H].
  assert (K : forall e, In e (g_edges g) /\ cls_eqb (ccls (e_model (e_dat e))) PhaseShifter = true <-> In e [e0]) by (intros e; rewrite <- E; symmetry; apply filter_In).
  destruct (proj2 (K e0) (or_introl eq_refl)) as [I0 C0]. split; [exact I0|]. intros e He. split.
  - intros C. assert (Q : In e [e0]) by (apply K; split; [exact He|apply cls_eqb_eq; exact C]). destruct Q as [<-|[]]. reflexivity.
  - intros ->. apply cls_eqb_eq. exact C0.
Qed.
Lemma not_one : forall g, wf g -> (length (phase_models g) <> 1%nat <-> ~ exists e0, sole_shifter g e0).
Proof.
  intros g W. split.
  - intros N (e0 & S). apply N. rewrite (phase_models_sole g e0 W S). reflexivity.
  - intros N L. apply N. destruct (phase_models g) as [|c [|c' l]] eqn:E; try discriminate L. destruct (one_model g c E) as (e0 & S & _). exists e0; exact S.
Qed.

(* a graph with no or several phase shifters: RuntimeError, and nothing has changed *)
Theorem C71_count : forall st p g node st' r, wf g -> (~ exists e0, sole_shifter g e0) ->
  (phase_sensitivity st p g node st' r <-> st' = st /\ r = Err RuntimeError).
Proof.
  intros st p g node st' r W N. apply (not_one g W) in N. split.
  - intros [_|c e M|c v ph e s' M|c v ph d s' M]; [auto| | |]; exfalso; apply N; rewrite M; reflexivity.
  - intros [-> ->]. apply ps_count. exact N.
Qed.
Print Assumptions C71_count.

(* an evaluation that gives a score: it is not positive, and all components of the graph
   hold the values they held before *)
Theorem C71_restored : forall st p g node st' score, furnished g st -> phase_sensitivity st p g node st' (Ok score) -> score <= 0 /\ same_values g st st'.
Proof.
  intros st p g node st' score F H. inversion H as [| | |c v ph d s' M Cp D As]; subst. split; [pose proof (Rabs_pos d); lra|].
  destruct (one_model g c M) as (e0 & [I0 S0] & E0). assert (Cc : ccls (e_model (e_dat e0)) = PhaseShifter) by (apply (S0 e0 I0); reflexivity). rewrite E0 in Cc.
  destruct (proj1 F e0 I0) as (o & ps & Hh & Al). rewrite E0 in Hh, Al. rewrite Cc in Al. apply has_params in Hh.
  destruct (allowed_entry _ _ 0%nat Al (ex_intro _ _ eq_refl)) as (q & Eq & _). destruct Al as [Ln _]. destruct ps as [|v' [|v'' ps]]; try discriminate Ln.
  cbn [nth_error] in Eq. injection Eq as ->. assert (Ev : v = Num q) by (unfold current_phase in Cp; rewrite Hh in Cp; cbn [bind] in Cp; unfold at_ in Cp; cbn in Cp; congruence). subst v.
  apply (assign_same g st (cid c) (Num q) st' F); [exact Hh|exact As].
Qed.
Print Assumptions C71_restored.

(* with a library that offers no phase shifter, a protected phase shifter stays the only one *)
Theorem C71_evolved : forall L g os g' e0, lib_ok L -> ~ In PhaseShifter (edge_models L) -> wf g -> acyclic g -> typed g ->
  sole_shifter g e0 -> cprot (e_model (e_dat e0)) = true -> evo_run L g os g' ->
  exists e0', sole_shifter g' e0' /\ e_model (e_dat e0') = e_model (e_dat e0).
Proof.
  intros L g os g' e0 LO N W A T S P R. apply one_model. rewrite phase_models_kind.
  assert (K : Permutation (of_kind is_shifter g') (of_kind is_shifter g)).
  { apply (run_kind L is_shifter) with (os := os); try assumption.
    - intros c Hc. destruct (is_shifter c) eqn:E; [|reflexivity]. apply cls_eqb_eq in E. subst c. contradiction.
    - apply shifter_swapped; assumption.
    - intros c [H|[-> | ->]]; [|reflexivity|reflexivity]. destruct c; try discriminate H; reflexivity.
    - intros c Hc Kc. apply in_map_iff in Hc as (e & <- & He). apply cls_eqb_eq in Kc. rewrite (proj1 (proj2 S e He) Kc). exact P. }
  rewrite <- (phase_models_kind g), (phase_models_sole g e0 W S) in K. apply Permutation_sym, Permutation_length_1_inv in K. exact K.
Qed.
Print Assumptions C71_evolved.

(* the evaluation of a vector of the phase is the simulation after writing the phase *)
Theorem C71_reading : forall st st' p g e0 sink q mean s old, wf g -> distinct_objects g -> furnished g st -> sole_shifter g e0 ->
  assign_parameters st (cid (e_model (e_dat e0))) [Num q] = Ok st' ->
  snd (simulate st' p g (repeat C0 (n_samples p)) old) = Ok tt -> saved (fst (simulate st' p g (repeat C0 (n_samples p)) old)) (PNode sink) = Some s ->
  phase_function mean st p g sink (just (cid (e_model (e_dat e0))) (Q2R q)) = Ok (mean s).
Proof.
  intros st st' p g e0 sink q mean s old W D F S As H1 H2.
  assert (Ag : propagate (phase_optics st p (just (cid (e_model (e_dat e0))) (Q2R q))) g (repeat C0 (n_samples p)) tt old = propagate (optics st' p) g (repeat C0 (n_samples p)) tt old).
  { destruct (has_edge g st e0 F (proj1 S)) as (o & ps & Hh). destruct (assign_reads st _ o ps [Num q] Hh) as (s1 & A1 & R1 & R2). rewrite As in A1. injection A1 as <-.
    assert (Ot : forall c, In c (components g) -> cid c <> cid (e_model (e_dat e0)) -> get_params st' (cid c) = get_params st (cid c)).
    { intros c Hc Ne. destruct (component_has g st c F Hc) as (o' & ps' & Hh'). rewrite (R2 _ _ _ Ne Hh'). symmetry. exact (has_params _ _ _ _ Hh'). }
    apply propagate_agree; [exact W| |].
    - intros n c ss i o' [] Mc. unfold phase_optics, optics. cbn [node_act]. rewrite Ot; [reflexivity| |].
      + destruct Mc as (d & Hd & <-). unfold components. apply in_or_app. left. apply in_map_iff. exists (n, d). auto.
      + intros E. unfold distinct_objects, components in D. rewrite map_app in D. destruct Mc as (d & Hd & <-).
        apply in_split in Hd as (l1 & l2 & Hd). rewrite Hd in D. rewrite !map_app in D. cbn [map snd] in D. rewrite <- app_assoc in D. cbn [app] in D. apply NoDup_remove_2 in D. apply D. rewrite E. apply in_or_app. right. apply in_or_app. right.
        rewrite map_map. apply (in_map (fun e => cid (e_model (e_dat e)))). exact (proj1 S).
    - intros e x [] He. unfold phase_optics. cbn [edge_act]. unfold just. destruct (Nat.eqb_spec (cid (e_model (e_dat e))) (cid (e_model (e_dat e0)))) as [E|E].
      + assert (e = e0) by exact (distinct_edges g e e0 D He (proj1 S) E). subst e. unfold optics. cbn [edge_act]. rewrite R1. cbn [bind]. rewrite (proj2 (proj2 S e0 (proj1 S)) eq_refl). reflexivity.
      + unfold optics. cbn [edge_act]. rewrite Ot; [reflexivity| |exact E]. unfold components. apply in_or_app. right. apply (in_map (fun e => e_model (e_dat e))). exact He. }
  unfold simulate in H1, H2. unfold phase_function. assert (Old : forall B : behaviour (list C) unit, propagate B g (repeat C0 (n_samples p)) tt [] = propagate B g (repeat C0 (n_samples p)) tt old \/ snd (propagate B g (repeat C0 (n_samples p)) tt old) <> Ok tt).
  { intros B. unfold propagate. destruct (topological_sort g); [left; reflexivity|right; discriminate]. }
  destruct (Old (phase_optics st p (just (cid (e_model (e_dat e0))) (Q2R q)))) as [-> | Q].
  - rewrite Ag. destruct (propagate (optics st' p) g _ tt old) as [[x sv] r]. cbn [fst snd] in H1, H2. subst r. cbn [bind]. unfold measure. rewrite H2. reflexivity.
  - rewrite Ag in Q. destruct (propagate (optics st' p) g _ tt old) as [[x sv] r]. cbn [fst snd] in *. contradiction.
Qed.
Print Assumptions C71_reading.

(* laser, splitter, phase shifter beside a waveguide, splitter, power meter *)
Definition mz_edges (protected : bool) : list (eid * comp) :=
  [((0, 1, 0), mkComp 104 ContinuousWaveLaser false); ((1, 2, 0), mkComp 105 PhaseShifter protected);
   ((1, 2, 1), mkComp 106 Waveguide false); ((2, 3, 0), mkComp 107 MeasurementDevice true)]%nat.
Definition mz (protected : bool) : graph := match init_graph nodes0 (mz_edges protected) with Some g => g | None => empty_graph end.
Definition mz_world : world := the (new_world nodes0 (mz_edges true) 1 2).
Definition arm (protected : bool) : edge := mkE 1 2 0 (mkED (mkComp 105 PhaseShifter protected) PhaseShifter).
Lemma mz_built : forall b, init_graph nodes0 (mz_edges b) = Some (mz b).
Proof. intros []; vm_compute; reflexivity. Qed.
Lemma mz_wf : forall b, wf (mz b).
Proof. intros b. exact (proj1 (init_graph_some nodes0 (mz_edges b) (mz b) nodes0_nodup (mz_built b))). Qed.
Lemma mz_acyclic : forall b, acyclic (mz b).
Proof. intros b. exact (proj1 (proj2 (init_graph_some nodes0 (mz_edges b) (mz b) nodes0_nodup (mz_built b)))). Qed.
Lemma mz_typed : forall b, typed (mz b).
Proof. intros b. apply typedb_typed; [exact (mz_wf b)|destruct b; vm_compute; reflexivity]. Qed.
Lemma mz_sole : forall b, sole_shifter (mz b) (arm b).
Proof.
  intros b. split; [destruct b; vm_compute; auto|]. intros e He. assert (E : In e [mkE 0 1 0 (mkED (mkComp 104 ContinuousWaveLaser false) ContinuousWaveLaser); arm b; mkE 1 2 1 (mkED (mkComp 106 Waveguide false) Waveguide); mkE 2 3 0 (mkED (mkComp 107 MeasurementDevice true) MeasurementDevice)]) by (destruct b; exact He).
  destruct E as [<-|[<-|[<-|[<-|[]]]]]; split; intros H; try reflexivity; discriminate H.
Qed.

(* the protected phase shifter is still the only one after an insertion in its own arm, an
   insertion in the other arm, a swap and a removal *)
Definition mz_script : list (op * location * draws) :=
  [(AddSeries, LIface 1 (1, 2, 0), draw 200 201 202 10); (AddSeries, LIface 1 (1, 2, 1), draw 203 204 205 11);
   (Swap, LEdge (11, 2, 0), draw 206 207 208 12); (Remove, LIface 1 (1, 11, 0), draw 0 0 0 0)]%nat.
Definition mz_late : graph := match run_script default_library (mz true) mz_script with Some g => g | None => empty_graph end.
Lemma mz_late_run : evo_run default_library (mz true) [AddSeries; AddSeries; Swap; Remove] mz_late.
Proof. apply (run_script_run default_library mz_script (mz true) mz_late). vm_compute; reflexivity. Qed.
Lemma default_no_shifter : ~ In PhaseShifter (edge_models default_library).
Proof. cbn. intuition discriminate. Qed.
Example C71_case : length (g_edges mz_late) = 5%nat /\ exists e0, sole_shifter mz_late e0 /\ e_model (e_dat e0) = mkComp 105 PhaseShifter true.
Proof.
  split; [vm_compute; reflexivity|].
  exact (C71_evolved default_library (mz true) _ mz_late (arm true) default_lib_ok default_no_shifter (mz_wf true) (mz_acyclic true) (mz_typed true) (mz_sole true) eq_refl mz_late_run).
Qed.
(* two phase shifters: the evaluation raises *)
Lemma two_shifters : forall g e e', In e (g_edges g) -> In e' (g_edges g) -> e <> e' -> ccls (e_model (e_dat e)) = PhaseShifter -> ccls (e_model (e_dat e')) = PhaseShifter -> ~ exists e0, sole_shifter g e0.
Proof. intros g e e' H H' Ne C C' (e0 & _ & S). apply Ne. rewrite (proj1 (S e H) C), (proj1 (S e' H') C'). reflexivity. Qed.

(* with the library of /repo/scripts/run_derivative_phase_terms.py:54-55, which offers phase
   shifters, evolution adds a second one *)
Definition script_classes : list cls := [VariablePowerSplitter; IntegratedDelayLine; PhaseShifter; VariableOpticalAttenuator; OpticalAmplifier; DispersiveFiber; PhaseModulator; IntensityModulator].
Definition script_library : library := match custom_library script_classes with Some L => L | None => default_library end.
Definition adding : list (op * location * draws) := [(AddSeries, LIface 1 (1, 2, 1), mkDraws (fresh 200 PhaseShifter) (bs 201) (fresh 202 PhaseShifter) 10)]%nat.
Definition mz_two : graph := match run_script script_library (mz true) adding with Some g => g | None => empty_graph end.
Theorem C71_offered_refuted : exists cs L g os g' e0, custom_library cs = Some L /\ wf g /\ acyclic g /\ typed g /\ sole_shifter g e0 /\ cprot (e_model (e_dat e0)) = true /\
  evo_run L g os g' /\ forall st p node st' r, phase_sensitivity st p g' node st' r -> r = Err RuntimeError.
Proof.
  exists script_classes, script_library, (mz true), [AddSeries], mz_two, (arm true). split; [vm_compute; reflexivity|]. split; [apply mz_wf|]. split; [apply mz_acyclic|]. split; [apply mz_typed|]. split; [apply mz_sole|]. split; [reflexivity|].
  assert (R : evo_run script_library (mz true) [AddSeries] mz_two) by (apply (run_script_run script_library adding (mz true) mz_two); vm_compute; reflexivity). split; [exact R|].
  intros st p node st' r H. apply (C71_count st p mz_two node st' r) in H; [tauto|exact (proj1 (run_wf_acyclic _ _ _ _ R (mz_wf true) (mz_acyclic true)))|].
  apply (two_shifters mz_two (arm true) (mkE 1 10 0 (mkED (fresh 200 PhaseShifter) PhaseShifter))); [vm_compute; tauto|vm_compute; tauto|discriminate|reflexivity|reflexivity].
Qed.
Print Assumptions C71_offered_refuted.

(* a phase shifter that is not protected may be swapped for another component *)
Definition replacing : list (op * location * draws) := [(Swap, LEdge (1, 2, 0), draw 200 201 202 10)]%nat.
Definition mz_none : graph := match run_script default_library (mz false) replacing with Some g => g | None => empty_graph end.
Theorem C71_unprotected_refuted : exists g os g' e0, wf g /\ acyclic g /\ typed g /\ sole_shifter g e0 /\
  evo_run default_library g os g' /\ forall st p node st' r, phase_sensitivity st p g' node st' r -> r = Err RuntimeError.
Proof.
  exists (mz false), [Swap], mz_none, (arm false). split; [apply mz_wf|]. split; [apply mz_acyclic|]. split; [apply mz_typed|]. split; [apply mz_sole|].
  assert (R : evo_run default_library (mz false) [Swap] mz_none) by (apply (run_script_run default_library replacing (mz false) mz_none); vm_compute; reflexivity). split; [exact R|].
  intros st p node st' r H. apply (C71_count st p mz_none node st' r) in H; [tauto|exact (proj1 (run_wf_acyclic _ _ _ _ R (mz_wf false) (mz_acyclic false)))|].
  intros (e0 & I0 & S0). pose proof (proj2 (S0 e0 I0) eq_refl) as C. vm_compute in I0. destruct I0 as [<-|[<-|[<-|[<-|[]]]]]; discriminate C.
Qed.
Print Assumptions C71_unprotected_refuted.

(** ** C72 *)
(* the mean detected power as a function of the phase is an interference fringe *)
Theorem C72_fringe : forall st p g e0 sink, interferometer st p g e0 sink -> fringe (fun x => phase_function mean_value st p g sink (just (cid (e_model (e_dat e0))) x)).
Proof. exact function_fringe. Qed.
Print Assumptions C72_fringe.

(* there is always exactly one outcome; the score is half the difference of the powers a
   quarter turn before and after the present phase, with a minus sign *)
Theorem C72_score : forall st p g e0 sink, interferometer st p g e0 sink ->
  let k := cid (e_model (e_dat e0)) in
  exists q st' before after, get_params st k = Ok [Num q] /\ assign_parameters st k [Num q] = Ok st' /\
    phase_function mean_value st p g sink (just k (Q2R q - PI / 2)) = Ok before /\ phase_function mean_value st p g sink (just k (Q2R q + PI / 2)) = Ok after /\
    forall s r, phase_sensitivity st p g sink s r <-> s = st' /\ r = Ok (- (Rabs (after - before) / 2)).
Proof.
  intros st p g e0 sink I k. destruct (current_value st p g e0 sink I) as (q & G & Cp). destruct (function_fringe st p g e0 sink I) as (a & b & c & _ & _ & F). cbn beta in F.
  destruct (has_edge g st e0 (if_furnished _ _ _ _ _ I) (proj1 (if_shifter _ _ _ _ _ I))) as (o & ps & Hh). destruct (assign_reads st _ o ps [Num q] Hh) as (st' & As & _).
  eexists q, st', _, _. split; [exact G|]. split; [exact As|]. split; [apply F|]. split; [apply F|]. intros s r.
  rewrite (score_exact st p g e0 sink I (Num q) (Q2R q) _ _ s r Cp (F _) (F _)). unfold k. rewrite As. split; intros [H ->]; split; congruence.
Qed.
Print Assumptions C72_score.

(* the score is zero when light reaches the part behind the phase shifter only through it *)
Theorem C72_confined : forall st p g e0 sink st' r, interferometer st p g e0 sink -> confined g e0 -> phase_sensitivity st p g sink st' r -> r = Ok 0.
Proof. intros st p g e0 sink st' r I Cf. exact (flat_score st p g e0 sink I (function_flat st p g e0 sink I Cf) st' r). Qed.
Print Assumptions C72_confined.

(* the score is zero when no light gets from the phase shifter to the measured end *)
Theorem C72_unreached : forall st p g e0 sink st' r, interferometer st p g e0 sink -> ~ path g (e_dst e0) sink -> phase_sensitivity st p g sink st' r -> r = Ok 0.
Proof. intros st p g e0 sink st' r I Np. exact (flat_score st p g e0 sink I (function_unreached st p g e0 sink I Np) st' r). Qed.
Print Assumptions C72_unreached.

(* the score is at most half of the largest mean power that the sources and gains allow *)
Theorem C72_limit : forall st p g e0 sink K starts val st' r, interferometer st p g e0 sink ->
  (contains g WaveShaper -> n_samples p <> 2%nat) -> (contains g ProgrammableFilter -> fine_grid (n_samples p) (window_t p)) ->
  route_bound g st K -> lists (starting g) starts ->
  (forall e, In e starts -> saved (fst (simulate st p g (repeat C0 (n_samples p)) [])) (PEdge (e_src e, e_dst e, e_key e)) = Some (val e)) ->
  phase_sensitivity st p g sink st' r ->
  exists score, r = Ok score /\ - ((K * total starts (fun e => strength (val e))) ^ 2 / INR (n_samples p) / 2) <= score <= 0.
Proof. intros st p g e0 sink K starts val st' r I H1 H2 H3 H4 H5. exact (score_limit st p g e0 sink I K starts val H1 H2 H3 H4 H5 st' r). Qed.
Print Assumptions C72_limit.

Lemma steady_energy : forall P (x : list C), 0 <= P -> energy (continuous_wave_laser P x) = INR (length x) * P.
Proof.
  intros P x HP. unfold continuous_wave_laser, energy. induction x as [|z x IH]; cbn [map fold_right length]; [cbn; ring|]. rewrite IH, S_INR, Cnorm2_RtoC, sqrt_sqrt by exact HP. ring.
Qed.
(* one steady laser and no component that gains: the score is at most half the power of the laser *)
Theorem C72_laser : forall st p g e0 sink e1 P rest st' r, interferometer st p g e0 sink ->
  (contains g WaveShaper -> n_samples p <> 2%nat) -> (contains g ProgrammableFilter -> fine_grid (n_samples p) (window_t p)) ->
  ~ contains g IntegratedSplitAndDelayLine -> (forall n c, model_at g n c -> ccls c <> FrequencySplitter) ->
  lists (starting g) [e1] -> ccls (e_model (e_dat e1)) = ContinuousWaveLaser -> get_params st (cid (e_model (e_dat e1))) = Ok (Num P :: rest) ->
  phase_sensitivity st p g sink st' r -> exists score, r = Ok score /\ - (Q2R P / 2) <= score <= 0.
Proof.
  intros st p g e0 sink e1 P rest st' r I H1 H2 H3 H4 L1 C1 G1 Hr.
  destruct (proj1 (proj2 L1 e1) (or_introl eq_refl)) as [I1 Ni]. destruct (if_bins _ _ _ _ _ I) as (n0 & Hn & Sh).
  assert (HP : 0 <= Q2R P).
  { destruct (proj1 (if_furnished _ _ _ _ _ I) e1 I1) as (o & ps & Hh & Al). rewrite C1 in Al. apply has_params in Hh. rewrite G1 in Hh. injection Hh as <-.
    destruct (allowed_bounds _ _ 0%nat P (Qmake 1 100000000) (Qmake 4 100) Al (conj eq_refl eq_refl) eq_refl eq_refl eq_refl) as [B _]. apply Qle_Rle in B. assert (0 <= Q2R (1 # 100000000)) by (unfold Q2R; cbn; lra). lra. }
  destruct (current_value st p g e0 sink I) as (q & G & _). destruct (function_solution st p g e0 sink I (Q2R q)) as (val & out & sv & Sol & Pr & Rc & _).
  assert (Np : 0 < INR (n_samples p)) by (apply lt_0_INR; destruct (if_usable _ _ _ _ _ I); lia).
  assert (En : energy (val e1) = INR (n_samples p) * Q2R P).
  { destruct (link st p g _ n0 (if_wf _ _ _ _ _ I) (if_acyclic _ _ _ _ _ I) (if_typed _ _ _ _ _ I) (if_furnished _ _ _ _ _ I) (if_usable _ _ _ _ _ I) (I_dark p) Hn e0 (I_cls st p g e0 sink I) (I_only st p g e0 sink I) e1 I1) as (c & i & _ & _ & Kx).
    destruct (Kx (Q2R q) val out Sol) as (_ & s & _ & _ & Ls & Es). assert (Ne : e1 <> e0) by (intros ->; rewrite (I_cls st p g e0 sink I) in C1; discriminate C1).
    rewrite (shifted_other st p g e0 (I_only st p g e0 sink I) (Q2R q) e1 s I1 Ne) in Es. cbn [edge_act optics snd] in Es. rewrite G1 in Es. cbn [bind] in Es. rewrite C1 in Es. cbn in Es. injection Es as <-. rewrite <- Ls. apply steady_energy. exact HP. }
  destruct (C72_limit st p g e0 sink 1 [e1] val st' r I H1 H2 (passive_routes g st (if_wf _ _ _ _ _ I) (if_linear _ _ _ _ _ I) H3 H4) L1) as (score & -> & B); [|exact Hr|].
  - intros e [<-|[]]. unfold simulate. rewrite (current_run st p g e0 sink I q [] G), Pr. cbn [fst]. exact (proj1 Rc e1 I1).
  - exists score. split; [reflexivity|]. unfold total in B. cbn [fold_right] in B. rewrite Rplus_0_r, Rmult_1_l in B. unfold strength in B. replace (sqrt (energy (val e1)) ^ 2) with (energy (val e1)) in B.
    + rewrite En in B. replace (INR (n_samples p) * Q2R P / INR (n_samples p)) with (Q2R P) in B by (field; lra). exact B.
    + cbn [pow]. rewrite Rmult_1_r. symmetry. apply sqrt_sqrt. rewrite En. apply Rmult_le_pos; lra.
Qed.
Print Assumptions C72_laser.

(* every graph that a user reaches from such a start, if it can be simulated and holds no
   amplifier, is an interferometer *)
Theorem C72_session : forall L ops nodes edges cur parent g w0 w p n e0 sink, lib_ok L -> ~ In PhaseShifter (edge_models L) -> NoDup ops -> NoDup (map fst nodes) ->
  NoDup (map (fun p => cid (snd p)) nodes ++ map (fun p => cid (snd p)) edges) ->
  init_graph nodes edges = Some g -> typed g -> new_world nodes edges cur parent = Ok w0 -> session L ops w0 w ->
  sole_shifter g e0 -> cprot (e_model (e_dat e0)) = true -> metered g -> no_output g sink -> ~ no_input g sink ->
  usable (n_samples p) (window_t p) -> bin_spans (n_samples p) (window_t p) n ->
  snd (simulate (w_store w) p (w_graph w) (repeat C0 (n_samples p)) []) = Ok tt -> ~ contains (w_graph w) OpticalAmplifier ->
  exists e0', interferometer (w_store w) p (w_graph w) e0' sink /\ e_model (e_dat e0') = e_model (e_dat e0).
Proof.
  intros L ops nodes edges cur parent g w0 w p n e0 sink LO NP OND ND DO Hi T Hw Hs S0 P0 [Ind Met] Ho Hni U Hn Sim Na.
  destruct (session_healthy L ops nodes edges cur parent g w0 w LO OND ND DO Hi T Hw Hs) as (((W & A & Ty & _) & Dis & _) & os & _ & Rn).
  assert (Fu := session_furnished L ops nodes edges cur parent g w0 w LO OND ND DO Hi T Hw Hs).
  destruct (init_graph_some nodes edges g ND Hi) as (Wg & Ag & _).
  destruct (C71_evolved L g os (w_graph w) e0 LO NP Wg Ag T S0 P0 Rn) as (e0' & S0' & E0'). exists e0'. split; [|exact E0'].
  destruct (run_terminals L g os (w_graph w) Rn Wg Ag) as (T1 & T2 & _).
  destruct (proj1 (proj1 (C65_exact (w_store w) p (w_graph w) (repeat C0 (n_samples p)) n [] W A Ty Fu U (repeat_length _ _) Hn)) Sim) as (Sf & Nb & Sh).
  assert (Ind' := run_indirect L g os (w_graph w) Rn Wg Ag Ind).
  assert (Gd : guarded is_detector g).
  { intros c Hc Kc. apply in_map_iff in Hc as (e & <- & He). unfold is_detector in Kc. apply Met. destruct (wf_ends g Wg e He) as [Ns Nd].
    assert (Ni : ~ no_input g (e_src e)) by (intros Q; rewrite (ty_edge_source g T e He Q) in Kc; discriminate Kc). split; [exact He|]. split; [exact Ni|]. apply no_output_iff. split; [exact Nd|].
    destruct (Nat.eq_dec (out_degree g (e_dst e)) 0) as [Z|Z]; [exact Z|]. exfalso. rewrite (ty_edge_inner g T e He Ni) in Kc; [discriminate Kc|]. rewrite no_output_iff. tauto. }
  assert (Dt : Permutation (of_kind is_detector (w_graph w)) (of_kind is_detector g)).
  { apply (run_kind L is_detector) with (os := os); try assumption.
    - intros c Hc. unfold is_detector. rewrite (lib_edge L LO c Hc). reflexivity.
    - apply detector_swapped; assumption.
    - intros c [H|[-> | ->]]; unfold is_detector; [rewrite H|..]; reflexivity. }
  constructor; try assumption.
  - exists n. auto.
  - apply T2; exact Ho.
  - rewrite T1; exact Hni.
  - intros e He Ed. assert (No : no_output (w_graph w) (e_dst e)) by (rewrite Ed; apply T2; exact Ho).
    assert (Ni : ~ no_input (w_graph w) (e_src e)) by (intros Q; exact (Ind' e He Q No)).
    assert (Kc : is_detector (ccls (e_model (e_dat e))) = true) by (unfold is_detector; rewrite (ty_edge_sink (w_graph w) Ty e He Ni No); reflexivity).
    assert (Q : In (e_model (e_dat e)) (of_kind is_detector g)).
    { apply (Permutation_in _ Dt). unfold of_kind. apply filter_In. split; [apply (in_map (fun e => e_model (e_dat e))); exact He|exact Kc]. }
    unfold of_kind in Q. apply filter_In in Q as [Q Kq]. apply in_map_iff in Q as (e' & Eq & He'). rewrite <- Eq in Kq |- *. apply Met. destruct (wf_ends g Wg e' He') as [Ns Nd]. unfold is_detector in Kq.
    assert (Ni' : ~ no_input g (e_src e')) by (intros X; rewrite (ty_edge_source g T e' He' X) in Kq; discriminate Kq). split; [exact He'|]. split; [exact Ni'|]. apply no_output_iff. split; [exact Nd|].
    destruct (Nat.eq_dec (out_degree g (e_dst e')) 0) as [Z|Z]; [exact Z|]. exfalso. rewrite (ty_edge_inner g T e' He' Ni') in Kq; [discriminate Kq|]. rewrite no_output_iff. tauto.
Qed.
Print Assumptions C72_session.

(** A Mach-Zehnder interferometer with the default values *)
Lemma mz_arms : w_graph mz_world = two_arms 100 (mkComp 105 PhaseShifter true) (mkComp 106 Waveguide false).
Proof. vm_compute. reflexivity. Qed.
Lemma mz_graph : w_graph mz_world = mz true.
Proof. vm_compute. reflexivity. Qed.
Lemma mz_params : get_params (w_store mz_world) 102 = Ok [Num (1 # 2)] /\ get_params (w_store mz_world) 103 = Ok [] /\ get_params (w_store mz_world) 100 = Ok [] /\ get_params (w_store mz_world) 101 = Ok [] /\
  get_params (w_store mz_world) 104 = Ok (sp_def (spec_of ContinuousWaveLaser)) /\ get_params (w_store mz_world) 105 = Ok [half_pi 1] /\ get_params (w_store mz_world) 106 = Ok [] /\ get_params (w_store mz_world) 107 = Ok [].
Proof. vm_compute. repeat split; reflexivity. Qed.
(* the power of the laser *)
Definition laser_watts : R := Q2R (4 # 100).
Lemma mz_reading : forall p x, usable (n_samples p) (window_t p) -> phase_function mean_value (w_store mz_world) p (w_graph mz_world) 3 (just 105 x) = Ok (laser_watts / 2 * (1 + cos x)).
Proof.
  intros p x U. destruct mz_params as (P1 & P2 & P3 & P4 & P5 & P6 & P7 & P8). assert (W := mz_wf true). assert (A := mz_acyclic true). rewrite <- mz_graph, mz_arms in W, A.
  rewrite mz_arms. rewrite (arms_function _ p 100 _ _ (just 105 x) mean_value (4 # 100) (tl (sp_def (spec_of ContinuousWaveLaser))) x 0 W A); [| |exact P3|exact P4|exact P1|exact P2|exact P5|exact P8|reflexivity|reflexivity| |].
  - rewrite mean_value_steady by (destruct U; lia). rewrite Rminus_0_r. reflexivity.
  - unfold Q2R. cbn. lra.
  - intros s L. cbn [phase_optics edge_act cid just Nat.eqb snd]. unfold phase_optics. cbn [edge_act cid just Nat.eqb snd]. exact (phase_shifter_exact x p s U L).
  - intros s L. unfold phase_optics, optics. cbn [edge_act cid just Nat.eqb snd ccls]. rewrite P7. cbn [bind component]. unfold waveguide. rewrite cis_0. f_equal. symmetry. rewrite <- (map_id s) at 2. apply map_ext. intros z. cplx. f_equal; ring.
Qed.
Lemma mz_in : forall n, no_input (mz true) n <-> n = 0%nat.
Proof.
  intros n. split.
  - intros [(d & Hd) H]. vm_compute in Hd. destruct Hd as [Hd|[Hd|[Hd|[Hd|[]]]]]; injection Hd as <- _; [reflexivity| | |]; exfalso.
    + eapply H; [vm_compute; left; reflexivity|reflexivity].
    + eapply H; [vm_compute; right; left; reflexivity|reflexivity].
    + eapply H; [vm_compute; right; right; right; left; reflexivity|reflexivity].
  - intros ->. split; [eexists; vm_compute; left; reflexivity|]. intros e He Q. vm_compute in He. destruct He as [<-|[<-|[<-|[<-|[]]]]]; discriminate Q.
Qed.
Lemma mz_out : forall n, no_output (mz true) n <-> n = 3%nat.
Proof.
  intros n. split.
  - intros [(d & Hd) H]. vm_compute in Hd. destruct Hd as [Hd|[Hd|[Hd|[Hd|[]]]]]; injection Hd as <- _; [| | |reflexivity]; exfalso.
    + eapply H; [vm_compute; left; reflexivity|reflexivity].
    + eapply H; [vm_compute; right; left; reflexivity|reflexivity].
    + eapply H; [vm_compute; right; right; right; left; reflexivity|reflexivity].
  - intros ->. split; [eexists; vm_compute; right; right; right; left; reflexivity|]. intros e He Q. vm_compute in He. destruct He as [<-|[<-|[<-|[<-|[]]]]]; discriminate Q.
Qed.
Lemma mz_metered : metered (mz true).
Proof.
  split.
  - intros e He Ni No. apply mz_in in Ni. apply mz_out in No. vm_compute in He. destruct He as [<-|[<-|[<-|[<-|[]]]]]; discriminate.
  - intros e (He & _ & No). apply mz_out in No. vm_compute in He. destruct He as [<-|[<-|[<-|[<-|[]]]]]; try discriminate No. split; reflexivity.
Qed.
Lemma mz_new : new_world nodes0 (mz_edges true) 1 2 = Ok mz_world.
Proof. vm_compute. reflexivity. Qed.
Lemma mz_objects : NoDup (map (fun p => cid (snd p)) nodes0 ++ map (fun p => cid (snd p)) (mz_edges true)).
Proof. simpl; repeat constructor; simpl; intuition discriminate. Qed.
Lemma mz_simulated : snd (simulate (w_store mz_world) grid8 (w_graph mz_world) (repeat C0 (n_samples grid8)) []) = Ok tt.
Proof.
  apply (proj1 (C65_session default_library evo_op_list nodes0 (mz_edges true) 1 2 (mz true) mz_world mz_world grid8 _ 0 [] default_lib_ok ops_nodup nodes0_nodup mz_objects (mz_built true) (mz_typed true) mz_new (ses_start _ _ _) grid8_usable (repeat_length _ _) grid8_bins)).
  split; [apply single_feed_check; vm_compute; reflexivity|]. split; [intros (e & o & ps & v & He & Ec & _)|intros (e & He & Ec)]; vm_compute in He; destruct He as [<-|[<-|[<-|[<-|[]]]]]; discriminate Ec.
Qed.
Lemma mz_interferometer : interferometer (w_store mz_world) grid8 (w_graph mz_world) (arm true) 3.
Proof.
  destruct (C72_session default_library evo_op_list nodes0 (mz_edges true) 1 2 (mz true) mz_world mz_world grid8 0 (arm true) 3 default_lib_ok default_no_shifter ops_nodup nodes0_nodup mz_objects (mz_built true) (mz_typed true) mz_new (ses_start _ _ _) (mz_sole true) eq_refl mz_metered) as (e & I & E).
  - apply mz_out. reflexivity.
  - rewrite mz_in. discriminate.
  - exact grid8_usable.
  - exact grid8_bins.
  - exact mz_simulated.
  - intros (e & He & Ec). vm_compute in He. destruct He as [<-|[<-|[<-|[<-|[]]]]]; discriminate Ec.
  - assert (Q : e = arm true); [|subst e; exact I]. destruct (if_shifter _ _ _ _ _ I) as [H S]. rewrite mz_graph in H. apply (proj2 (mz_sole true) e H). rewrite E. reflexivity.
Qed.
(* the reading is P / 2 (1 + cos x), so the score at the phase x is - P / 2 |sin x| *)
Example C72_case : interferometer (w_store mz_world) grid8 (w_graph mz_world) (arm true) 3 /\
  (forall x, phase_function mean_value (w_store mz_world) grid8 (w_graph mz_world) 3 (just 105 x) = Ok (laser_watts / 2 * (1 + cos x))) /\
  exists q st', get_params (w_store mz_world) 105 = Ok [Num q] /\
    forall s r, phase_sensitivity (w_store mz_world) grid8 (w_graph mz_world) 3 s r <-> s = st' /\ r = Ok (- (laser_watts / 2 * Rabs (sin (Q2R q)))).
Proof.
  assert (I := mz_interferometer). split; [exact I|]. assert (Rd := fun x => mz_reading grid8 x grid8_usable). split; [exact Rd|].
  destruct (C72_score _ _ _ _ _ I) as (q & st' & before & after & G & _ & Eb & Ea & Sc). exists q, st'. split; [exact G|]. intros s r. rewrite Sc.
  change (cid (e_model (e_dat (arm true)))) with 105%nat in Eb, Ea. rewrite Rd in Eb, Ea. injection Eb as Eb. injection Ea as Ea.
  assert (V : Rabs (after - before) / 2 = laser_watts / 2 * Rabs (sin (Q2R q))).
  { rewrite <- Ea, <- Eb. replace (laser_watts / 2 * (1 + cos (Q2R q + PI / 2)) - laser_watts / 2 * (1 + cos (Q2R q - PI / 2))) with (laser_watts * - sin (Q2R q)) by (rewrite cos_plus, cos_minus, cos_PI2, sin_PI2; field).
    rewrite Rabs_mult, Rabs_Ropp, (Rabs_right laser_watts) by (unfold laser_watts, Q2R; cbn; lra). field. }
  rewrite V. reflexivity.
Qed.

(* the start graph of /repo/scripts/run_phase_sensitivity.py:73-82, the phase shifter in line: every score is zero *)
Definition line_edges : list (eid * comp) :=
  [((0, 1, 0), mkComp 104 ContinuousWaveLaser false); ((1, 2, 0), mkComp 105 PhaseShifter true); ((2, 3, 1), mkComp 107 MeasurementDevice true)]%nat.
Definition line : graph := match init_graph nodes0 line_edges with Some g => g | None => empty_graph end.
Definition line_world : world := the (new_world nodes0 line_edges 1 2).
Lemma line_built : init_graph nodes0 line_edges = Some line. Proof. vm_compute. reflexivity. Qed.
Lemma line_in : forall n, no_input line n <-> n = 0%nat.
Proof.
  intros n. split.
  - intros [(d & Hd) H]. vm_compute in Hd. destruct Hd as [Hd|[Hd|[Hd|[Hd|[]]]]]; injection Hd as <- _; [reflexivity| | |]; exfalso.
    + eapply H; [vm_compute; left; reflexivity|reflexivity].
    + eapply H; [vm_compute; right; left; reflexivity|reflexivity].
    + eapply H; [vm_compute; right; right; left; reflexivity|reflexivity].
  - intros ->. split; [eexists; vm_compute; left; reflexivity|]. intros e He Q. vm_compute in He. destruct He as [<-|[<-|[<-|[]]]]; discriminate Q.
Qed.
Lemma line_out : forall n, no_output line n <-> n = 3%nat.
Proof.
  intros n. split.
  - intros [(d & Hd) H]. vm_compute in Hd. destruct Hd as [Hd|[Hd|[Hd|[Hd|[]]]]]; injection Hd as <- _; [| | |reflexivity]; exfalso.
    + eapply H; [vm_compute; left; reflexivity|reflexivity].
    + eapply H; [vm_compute; right; left; reflexivity|reflexivity].
    + eapply H; [vm_compute; right; right; left; reflexivity|reflexivity].
  - intros ->. split; [eexists; vm_compute; right; right; right; left; reflexivity|]. intros e He Q. vm_compute in He. destruct He as [<-|[<-|[<-|[]]]]; discriminate Q.
Qed.
Lemma line_behind : forall n, path line 2 n -> n = 2%nat \/ n = 3%nat.
Proof.
  intros n H. apply Operators_Properties.clos_rt_rtn1 in H. induction H as [|a b (e & He & E1 & E2) _ IH]; [left; reflexivity|].
  vm_compute in He. destruct He as [<-|[<-|[<-|[]]]]; cbn [e_src e_dst] in E1, E2; subst a b; destruct IH as [IH|IH]; try discriminate IH; right; reflexivity.
Qed.
Example C72_line : (exists e0, interferometer (w_store line_world) grid8 (w_graph line_world) e0 3 /\ confined (w_graph line_world) e0) /\
  (exists st', phase_sensitivity (w_store line_world) grid8 (w_graph line_world) 3 st' (Ok 0)) /\
  forall st' r, phase_sensitivity (w_store line_world) grid8 (w_graph line_world) 3 st' r -> r = Ok 0.
Proof.
  assert (W : wf line) by exact (proj1 (init_graph_some nodes0 line_edges line nodes0_nodup line_built)).
  assert (T : typed line) by (apply typedb_typed; [exact W|vm_compute; reflexivity]).
  assert (N : new_world nodes0 line_edges 1 2 = Ok line_world) by (vm_compute; reflexivity).
  assert (Eg : w_graph line_world = line) by (vm_compute; reflexivity).
  assert (D : NoDup (map (fun p => cid (snd p)) nodes0 ++ map (fun p => cid (snd p)) line_edges)) by (simpl; repeat constructor; simpl; intuition discriminate).
  assert (S : sole_shifter line (arm true)).
  { split; [vm_compute; auto|]. intros e He. vm_compute in He. destruct He as [<-|[<-|[<-|[]]]]; split; intros H; try reflexivity; discriminate H. }
  assert (Sm : snd (simulate (w_store line_world) grid8 (w_graph line_world) (repeat C0 (n_samples grid8)) []) = Ok tt).
  { apply (proj1 (C65_session default_library evo_op_list nodes0 line_edges 1 2 line line_world line_world grid8 _ 0 [] default_lib_ok ops_nodup nodes0_nodup D line_built T N (ses_start _ _ _) grid8_usable (repeat_length _ _) grid8_bins)).
    split; [apply single_feed_check; vm_compute; reflexivity|]. split; [intros (e & o & ps & v & He & Ec & _)|intros (e & He & Ec)]; vm_compute in He; destruct He as [<-|[<-|[<-|[]]]]; discriminate Ec. }
  destruct (C72_session default_library evo_op_list nodes0 line_edges 1 2 line line_world line_world grid8 0 (arm true) 3 default_lib_ok default_no_shifter ops_nodup nodes0_nodup D line_built T N (ses_start _ _ _) S eq_refl) as (e0 & I & E0).
  - split.
    + intros e He Ni No. apply line_in in Ni. apply line_out in No. vm_compute in He. destruct He as [<-|[<-|[<-|[]]]]; discriminate.
    + intros e (He & _ & No). apply line_out in No. vm_compute in He. destruct He as [<-|[<-|[<-|[]]]]; try discriminate No. split; reflexivity.
  - apply line_out. reflexivity.
  - rewrite line_in. discriminate.
  - exact grid8_usable.
  - exact grid8_bins.
  - exact Sm.
  - intros (e & He & Ec). vm_compute in He. destruct He as [<-|[<-|[<-|[]]]]; discriminate Ec.
  - assert (Q : e0 = arm true) by (destruct (if_shifter _ _ _ _ _ I) as [H _]; rewrite Eg in H; apply (proj2 S e0 H); rewrite E0; reflexivity). subst e0.
    assert (Cf : confined (w_graph line_world) (arm true)).
    { rewrite Eg. intros e He Ne No Pb. apply line_behind in Pb. change (e_dst (arm true)) with 2%nat. vm_compute in He. destruct He as [<-|[<-|[<-|[]]]]; cbn [e_dst e_src] in *; destruct Pb as [Pb|Pb]; try discriminate Pb.
      - exfalso; apply Ne; reflexivity.
      - apply Relation_Operators.rt_refl. }
    split; [exists (arm true); auto|]. assert (Z := fun st' r => C72_confined _ _ _ _ _ st' r I Cf). split; [|exact Z].
    destruct (C72_score _ _ _ _ _ I) as (q & st' & before & after & _ & _ & _ & _ & Sc). exists st'. pose proof (proj2 (Sc st' _) (conj eq_refl eq_refl)) as H. pose proof (Z _ _ H) as E. rewrite E in H. exact H.
Qed.

(** ** C73 *)
Lemma flat_difference : forall f x v d, (forall y, f y = v) -> differentiates f x (Ok d) -> d = 0.
Proof.
  intros f x v d Hf H. inversion H as [|h d' Hh D]; subst. apply (uniqueness_limite (fun _ => h x) x); [|apply (derivable_pt_lim_const (h x) x)].
  assert (E : forall y, h y = h x) by (intros y; pose proof (Hh y); pose proof (Hh x); rewrite Hf in *; congruence).
  intros eps He. destruct (D eps He) as (dl & Hd). exists dl. intros t T1 T2. specialize (Hd t T1 T2). rewrite (E (x + t)) in Hd. exact Hd.
Qed.
(* a graph that does not hold the two components does not see their phases *)
Lemma foreign_function : forall mean st p g node k1 k2 x y, wf g -> (forall c, In c (components g) -> cid c <> k1 /\ cid c <> k2) ->
  phase_function mean st p g node (both k1 k2 x y) = (do _ <- snd (simulate st p g (repeat C0 (n_samples p)) []); do s <- measure (fst (simulate st p g (repeat C0 (n_samples p)) [])) (PNode node); Ok (mean s)).
Proof.
  intros mean st p g node k1 k2 x y W F. unfold phase_function, simulate.
  rewrite (propagate_agree _ _ (phase_optics st p (both k1 k2 x y)) (optics st p) g _ W); [destruct (propagate (optics st p) g _ tt []) as [[u sv] r]; reflexivity|reflexivity|].
  intros e s [] He. unfold phase_optics. cbn [edge_act]. unfold both. destruct (F (e_model (e_dat e))) as [N1 N2].
  { unfold components. apply in_or_app. right. apply (in_map (fun e => e_model (e_dat e))). exact He. }
  rewrite (proj2 (Nat.eqb_neq _ _) N2), (proj2 (Nat.eqb_neq _ _) N1). reflexivity.
Qed.

(* the evaluator holds the phase shifters k1 and k2.  On a graph that does not hold these
   two objects, for instance a deep copy, every score is zero *)
Theorem C73_foreign : forall st p g node k1 k2, wf g -> (forall c, In c (components g) -> cid c <> k1 /\ cid c <> k2) ->
  (forall st' score, second_order st p g node k1 k2 st' (Ok score) -> score = 0) /\
  (forall e e' q1 q2 s, In e (g_edges g) -> In e' (g_edges g) -> e <> e' -> ccls (e_model (e_dat e)) = PhaseShifter -> ccls (e_model (e_dat e')) = PhaseShifter ->
     k1 <> k2 -> get_params st k1 = Ok [Num q1] -> get_params st k2 = Ok [Num q2] ->
     snd (simulate st p g (repeat C0 (n_samples p)) []) = Ok tt -> saved (fst (simulate st p g (repeat C0 (n_samples p)) [])) (PNode node) = Some s ->
     exists st', second_order st p g node k1 k2 st' (Ok 0)).
Proof.
  intros st p g node k1 k2 W F. assert (K := fun x y => foreign_function mean_square st p g node k1 k2 x y W F). split.
  - intros st' score H. inversion H as [|v1 ph1 v2 ph2 d1 first d12 s1 s2 _ _ _ D1 D2 D12]; subst.
    assert (Z1 : d1 = 0) by exact (flat_difference _ _ _ _ (fun y => K y ph2) D1).
    assert (Z2 : forall y, first y = 0) by (intros y; exact (flat_difference _ _ _ _ (fun x => K x y) (D2 y))).
    assert (Z3 : d12 = 0) by (apply (flat_difference (fun y => Ok (first y)) ph2 (Ok 0)); [intros y; rewrite Z2; reflexivity|apply (diff_value _ _ first); [reflexivity|exact D12]]).
    rewrite Z1, Z3, Rabs_R0. ring.
  - intros e e' q1 q2 s He He' Ne Ce Ce' Nk G1 G2 Sm Sv.
    assert (V : forall x y, phase_function mean_square st p g node (both k1 k2 x y) = Ok (mean_square s)) by (intros x y; rewrite K, Sm; cbn [bind]; unfold measure; rewrite Sv; reflexivity).
    destruct (params_has _ _ _ G1) as (o1 & H1). destruct (params_has _ _ _ G2) as (o2 & H2). destruct (assign_reads st k1 o1 [Num q1] [Num q1] H1) as (st1 & A1 & _ & R1).
    destruct (params_has _ _ _ (R1 k2 o2 [Num q2] (not_eq_sym Nk) H2)) as (o2' & H2'). destruct (assign_reads st1 k2 o2' [Num q2] [Num q2] H2') as (st2 & A2 & _).
    exists st2. replace 0 with (- (Rabs 0 + 0 * 0)) by (rewrite Rabs_R0; ring). apply (so_score st p g node k1 k2 (Num q1) (Q2R q1) (Num q2) (Q2R q2) 0 (fun _ => 0) 0 st1 st2); try assumption.
    + unfold phase_models. rewrite models_edges, map_length. assert (Q : forall u, In u [e; e'] -> In u (filter (fun e => cls_eqb (ccls (e_model (e_dat e))) PhaseShifter) (g_edges g))).
      { intros u [<-|[<-|[]]]; apply filter_In; (split; [assumption|apply cls_eqb_eq; assumption]). }
      apply (NoDup_incl_length (l := [e; e'])); [|exact Q]. constructor; [intros [X|[]]; apply Ne; symmetry; exact X|constructor; [intros []|constructor]].
    + unfold current_phase. rewrite G1. reflexivity.
    + unfold current_phase. rewrite G2. reflexivity.
    + apply (diff_value _ _ (fun _ => mean_square s)); [intros y; apply V|apply derivable_pt_lim_const].
    + intros y. apply (diff_value _ _ (fun _ => mean_square s)); [intros x; apply V|apply derivable_pt_lim_const].
    + apply (derivable_pt_lim_const 0).
Qed.
Print Assumptions C73_foreign.

(* fewer than two phase shifters in the graph: RuntimeError, and nothing has changed *)
Theorem C73_count : forall st p g node k1 k2 st' r, wf g -> (forall e e', In e (g_edges g) -> In e' (g_edges g) -> ccls (e_model (e_dat e)) = PhaseShifter -> ccls (e_model (e_dat e')) = PhaseShifter -> e = e') ->
  (second_order st p g node k1 k2 st' r <-> st' = st /\ r = Err RuntimeError).
Proof.
  intros st p g node k1 k2 st' r W H. assert (L : (length (phase_models g) < 2)%nat).
  { unfold phase_models. rewrite models_edges, map_length. assert (N : NoDup (filter (fun e => cls_eqb (ccls (e_model (e_dat e))) PhaseShifter) (g_edges g))) by (apply NoDup_filter; exact (NoDup_map_inv _ _ (wf_keys g W))).
    assert (Q : forall e, In e (filter (fun e => cls_eqb (ccls (e_model (e_dat e))) PhaseShifter) (g_edges g)) -> In e (g_edges g) /\ ccls (e_model (e_dat e)) = PhaseShifter) by (intros e He; apply filter_In in He as [H1 H2]; apply cls_eqb_eq in H2; auto).
    destruct (filter _ _) as [|e [|e' l]]; cbn [length]; try lia. exfalso. inversion N as [|? ? N1 _]; subst. apply N1. left. destruct (Q e (or_introl eq_refl)), (Q e' (or_intror (or_introl eq_refl))). apply H; assumption. }
  split; [intros [_|v1 ph1 v2 ph2 d1 first d12 s1 s2 Q]; [auto|lia]|]. intros [-> ->]. apply so_count. exact L.
Qed.
Print Assumptions C73_count.

(* an evaluation that gives a score: it is not positive, and all components of the graph hold
   the values they held before *)
Theorem C73_restored : forall st p g node k1 k2 st' score q1 q2, furnished g st -> get_params st k1 = Ok [Num q1] -> get_params st k2 = Ok [Num q2] ->
  second_order st p g node k1 k2 st' (Ok score) -> score <= 0 /\ same_values g st st'.
Proof.
  intros st p g node k1 k2 st' score q1 q2 F G1 G2 H. inversion H as [|v1 ph1 v2 ph2 d1 first d12 s1 s2 _ C1 C2 _ _ _ A1 A2]; subst.
  split; [pose proof (Rabs_pos d1); nra|]. unfold current_phase in C1, C2. rewrite G1 in C1. rewrite G2 in C2. unfold at_ in C1, C2. cbn in C1, C2. injection C1 as <- _. injection C2 as <- _.
  destruct (params_has _ _ _ G1) as (o1 & H1). destruct (assign_reads st k1 o1 [Num q1] [Num q1] H1) as (s1' & A1' & R1 & R2). assert (s1' = s1) by congruence. subst s1'.
  assert (G2' : get_params s1 k2 = Ok [Num q2]) by (destruct (Nat.eq_dec k2 k1) as [-> |Ne]; [rewrite R1; congruence|destruct (params_has _ _ _ G2) as (o2 & H2); exact (R2 k2 o2 _ Ne H2)]).
  destruct (params_has _ _ _ G2') as (o2 & H2). destruct (assign_reads s1 k2 o2 [Num q2] [Num q2] H2) as (s2' & A2' & R3 & R4). assert (s2' = st') by congruence. subst s2'.
  intros c Hc. destruct (component_has g st c F Hc) as (o & ps & Hh). assert (P1 : get_params s1 (cid c) = Ok ps) by (rewrite (assign_same g st k1 (Num q1) s1 F G1 A1 c Hc); exact (has_params _ _ _ _ Hh)).
  rewrite (has_params _ _ _ _ Hh). destruct (Nat.eq_dec (cid c) k2) as [E|Ne].
  - rewrite E in *. rewrite R3. congruence.
  - destruct (params_has _ _ _ P1) as (o' & Hh'). exact (R4 _ _ _ Ne Hh').
Qed.
Print Assumptions C73_restored.

(* the same component given twice: the second assignment hides the first, the score is zero *)
Theorem C73_same : forall st p g node k st' score, second_order st p g node k k st' (Ok score) -> score = 0.
Proof.
  intros st p g node k st' score H. inversion H as [|v1 ph1 v2 ph2 d1 first d12 s1 s2 _ _ _ D1 D2 D12]; subst.
  assert (K : forall x y, phase_function mean_square st p g node (both k k x y) = phase_function mean_square st p g node (just k y)).
  { intros x y. f_equal. apply FunctionalExtensionality.functional_extensionality. intros i. unfold both, just. destruct (Nat.eqb i k); reflexivity. }
  assert (Z1 : d1 = 0) by exact (flat_difference _ _ _ _ (fun y => K y ph2) D1).
  assert (Z2 : forall y, first y = 0) by (intros y; exact (flat_difference _ _ _ _ (fun x => K x y) (D2 y))).
  assert (Z3 : d12 = 0) by (apply (flat_difference (fun y => Ok (first y)) ph2 (Ok 0)); [intros y; rewrite Z2; reflexivity|apply (diff_value _ _ first); [reflexivity|exact D12]]).
  rewrite Z1, Z3, Rabs_R0. ring.
Qed.
Print Assumptions C73_same.

(* the quantity that is differentiated: the mean square of the real part of the field that the
   simulation with these two phases saves *)
Theorem C73_reading : forall st st1 st2 p g e1 e2 sink q1 q2 s, wf g -> distinct_objects g -> furnished g st -> In e1 (g_edges g) -> In e2 (g_edges g) ->
  ccls (e_model (e_dat e1)) = PhaseShifter -> ccls (e_model (e_dat e2)) = PhaseShifter ->
  assign_parameters st (cid (e_model (e_dat e1))) [Num q1] = Ok st1 -> assign_parameters st1 (cid (e_model (e_dat e2))) [Num q2] = Ok st2 ->
  snd (simulate st2 p g (repeat C0 (n_samples p)) []) = Ok tt -> saved (fst (simulate st2 p g (repeat C0 (n_samples p)) [])) (PNode sink) = Some s ->
  phase_function mean_square st p g sink (both (cid (e_model (e_dat e1))) (cid (e_model (e_dat e2))) (Q2R q1) (Q2R q2)) = Ok (fold_right Rplus 0 (map (fun z => (re z) ^ 2) s) / INR (length s)).
Proof.
  intros st st1 st2 p g e1 e2 sink q1 q2 s W D F I1 I2 C1 C2 A1 A2 H1 H2. set (k1 := cid (e_model (e_dat e1))) in *. set (k2 := cid (e_model (e_dat e2))) in *.
  destruct (has_edge g st e1 F I1) as (o1 & ps1 & Hh1). destruct (assign_reads st k1 o1 ps1 [Num q1] Hh1) as (s1 & B1 & R1 & R2). rewrite A1 in B1. injection B1 as <-.
  assert (Ot1 : forall c, In c (components g) -> cid c <> k1 -> get_params st1 (cid c) = get_params st (cid c)).
  { intros c Hc Ne. destruct (component_has g st c F Hc) as (o' & ps' & Hh'). rewrite (R2 _ _ _ Ne Hh'). symmetry. exact (has_params _ _ _ _ Hh'). }
  assert (K2 : exists ps2, get_params st1 k2 = Ok ps2).
  { destruct (Nat.eq_dec k2 k1) as [E|E]; [rewrite E; eexists; exact R1|]. destruct (has_edge g st e2 F I2) as (o & ps & Hh). exists ps. exact (R2 k2 o ps E Hh). }
  destruct K2 as (ps2 & K2). destruct (params_has _ _ _ K2) as (o2 & Hh2). destruct (assign_reads st1 k2 o2 ps2 [Num q2] Hh2) as (s2 & B2 & R3 & R4). rewrite A2 in B2. injection B2 as <-.
  assert (Ot2 : forall i ps, i <> k2 -> get_params st1 i = Ok ps -> get_params st2 i = Ok ps) by (intros i ps Ne G; destruct (params_has _ _ _ G) as (o & Hh); exact (R4 i o ps Ne Hh)).
  assert (Ot : forall c, In c (components g) -> cid c <> k1 -> cid c <> k2 -> get_params st2 (cid c) = get_params st (cid c)).
  { intros c Hc N1 N2. destruct (component_has g st c F Hc) as (o' & ps' & Hh'). rewrite (has_params _ _ _ _ Hh'). apply Ot2; [exact N2|]. rewrite (Ot1 c Hc N1). exact (has_params _ _ _ _ Hh'). }
  assert (Nd : forall n c e, model_at g n c -> In e (g_edges g) -> cid c <> cid (e_model (e_dat e))).
  { intros n c e Mc He E. unfold distinct_objects, components in D. rewrite map_app in D. destruct Mc as (d & Hd & <-).
    apply in_split in Hd as (l1 & l2 & Hd). rewrite Hd in D. rewrite !map_app in D. cbn [map snd] in D. rewrite <- app_assoc in D. cbn [app] in D. apply NoDup_remove_2 in D. apply D. rewrite E. apply in_or_app. right. apply in_or_app. right.
    rewrite map_map. apply (in_map (fun e => cid (e_model (e_dat e)))). exact He. }
  assert (Ag : propagate (phase_optics st p (both k1 k2 (Q2R q1) (Q2R q2))) g (repeat C0 (n_samples p)) tt [] = propagate (optics st2 p) g (repeat C0 (n_samples p)) tt []).
  { apply propagate_agree; [exact W| |].
    - intros n c ss i o' [] Mc. unfold phase_optics, optics. cbn [node_act]. rewrite Ot; [reflexivity| |exact (Nd n c e1 Mc I1)|exact (Nd n c e2 Mc I2)].
      destruct Mc as (d & Hd & <-). unfold components. apply in_or_app. left. apply in_map_iff. exists (n, d). auto.
    - intros e x [] He. unfold phase_optics. cbn [edge_act]. unfold both. destruct (Nat.eqb_spec (cid (e_model (e_dat e))) k2) as [E|E].
      + assert (e = e2) by exact (distinct_edges g e e2 D He I2 E). subst e. unfold optics. cbn [edge_act]. fold k2. rewrite R3. cbn [bind]. rewrite C2. reflexivity.
      + destruct (Nat.eqb_spec (cid (e_model (e_dat e))) k1) as [E'|E'].
        * assert (e = e1) by exact (distinct_edges g e e1 D He I1 E'). subst e. unfold optics. cbn [edge_act]. fold k1. fold k1 in E. rewrite (Ot2 k1 _ E R1). cbn [bind]. rewrite C1. reflexivity.
        * unfold optics. cbn [edge_act]. rewrite Ot; [reflexivity| |exact E'|exact E]. unfold components. apply in_or_app. right. apply (in_map (fun e => e_model (e_dat e))). exact He. }
  unfold simulate in H1, H2. unfold phase_function. rewrite Ag. destruct (propagate (optics st2 p) g _ tt []) as [[x sv] r]. cbn [fst snd] in H1, H2. subst r. cbn [bind]. unfold measure. rewrite H2. cbn [of_option bind].
  unfold mean_square. do 3 f_equal. apply map_ext. intros z. ring.
Qed.
Print Assumptions C73_reading.

(* the constructors ask for protected components *)
Theorem C73_protected : forall models, (accepts models = Ok tt <-> forall m, In m models -> cprot m = true) /\ (accepts models <> Ok tt -> accepts models = Err AssertionError).
Proof.
  intros models. unfold accepts. split; [|destruct (forallb cprot models); congruence]. rewrite <- forallb_forall. destruct (forallb cprot models); split; congruence.
Qed.
Print Assumptions C73_protected.
Example C73_protected_case : accepts [mkComp 1 PhaseShifter true; mkComp 2 PhaseShifter false] = Err AssertionError.
Proof. reflexivity. Qed.

(* a phase shifter in each arm, and a deep copy of that graph in the same process *)
Definition arms_nodes (k : nat) : list (node * comp) := [(0, mkComp k TerminalSource false); (1, bs (k + 2)); (2, bs (k + 3)); (3, mkComp (k + 1) TerminalSink false)]%nat.
Definition arms_edges (k : nat) : list (eid * comp) :=
  [((0, 1, 0), mkComp (k + 4) ContinuousWaveLaser false); ((1, 2, 0), mkComp (k + 5) PhaseShifter true); ((1, 2, 1), mkComp (k + 6) PhaseShifter true); ((2, 3, 0), mkComp (k + 7) MeasurementDevice true)]%nat.
Definition arms_world (k : nat) : world := the (new_world (arms_nodes k) (arms_edges k) 1 2).
Definition shifters (k : nat) : graph := two_arms k (mkComp (k + 5) PhaseShifter true) (mkComp (k + 6) PhaseShifter true).
Definition process : store :=
  let s := w_store (arms_world 100) in let s' := w_store (arms_world 200) in
  mkStore (s_objs s ++ map (fun p => (fst p, let o := snd p in mkObj (o_list o + 100) (o_lock o) (o_lo o) (o_hi o) (o_types o) (o_steps o) (o_locks o) (o_num o))) (s_objs s'))
          (s_lists s ++ map (fun p => (fst p + 100, snd p)%nat) (s_lists s')).
Lemma shifters_ok : forall k, k = 100%nat \/ k = 200%nat -> wf (shifters k) /\ acyclic (shifters k).
Proof.
  intros k Hk. assert (N : NoDup (map fst (arms_nodes k))) by (simpl; repeat constructor; simpl; intuition discriminate).
  assert (E : init_graph (arms_nodes k) (arms_edges k) = Some (shifters k)) by (destruct Hk as [-> | ->]; vm_compute; reflexivity).
  destruct (init_graph_some _ _ _ N E) as (W & A & _). auto.
Qed.
Lemma process_params : forall k, k = 100%nat \/ k = 200%nat -> get_params process k = Ok [] /\ get_params process (k + 1) = Ok [] /\ get_params process (k + 2) = Ok [Num (1 # 2)] /\ get_params process (k + 3) = Ok [] /\
  get_params process (k + 4) = Ok (sp_def (spec_of ContinuousWaveLaser)) /\ get_params process (k + 5) = Ok [half_pi 1] /\ get_params process (k + 6) = Ok [half_pi 1] /\ get_params process (k + 7) = Ok [].
Proof. intros k [-> | ->]; vm_compute; repeat split; reflexivity. Qed.
Definition squared (x y : R) : R := laser_watts / 2 * (1 + cos (x - y)) * (laser_watts / 2 * (1 + cos (x - y))).
Lemma own_function : forall p x y, usable (n_samples p) (window_t p) -> phase_function mean_square process p (shifters 100) 3 (both 105 106 x y) = Ok (squared x y).
Proof.
  intros p x y U. destruct (process_params 100 (or_introl eq_refl)) as (P0 & P1 & P2 & P3 & P4 & P5 & P6 & P7). destruct (shifters_ok 100 (or_introl eq_refl)) as [W A].
  unfold shifters. rewrite (arms_function process p 100 _ _ (both 105 106 x y) mean_square (4 # 100) (tl (sp_def (spec_of ContinuousWaveLaser))) x y W A); [| |exact P0|exact P1|exact P2|exact P3|exact P4|exact P7|reflexivity|reflexivity| |].
  - rewrite mean_square_steady by (destruct U; lia). reflexivity.
  - unfold Q2R. cbn. lra.
  - intros s L. unfold phase_optics. cbn [edge_act cid both Nat.eqb Nat.add snd]. exact (phase_shifter_exact x p s U L).
  - intros s L. unfold phase_optics. cbn [edge_act cid both Nat.eqb Nat.add snd]. exact (phase_shifter_exact y p s U L).
Qed.
Lemma copy_function : forall p x y, usable (n_samples p) (window_t p) -> phase_function mean_square process p (shifters 200) 3 (both 105 106 x y) = Ok (laser_watts * laser_watts).
Proof.
  intros p x y U. destruct (process_params 200 (or_intror eq_refl)) as (P0 & P1 & P2 & P3 & P4 & P5 & P6 & P7). destruct (shifters_ok 200 (or_intror eq_refl)) as [W A].
  assert (Ph : exists q, half_pi 1 = Num q) by (eexists; reflexivity). destruct Ph as (q & Ph). rewrite Ph in P5, P6. cbn [Nat.add] in P5, P6.
  unfold shifters. rewrite (arms_function process p 200 _ _ (both 105 106 x y) mean_square (4 # 100) (tl (sp_def (spec_of ContinuousWaveLaser))) (Q2R q) (Q2R q) W A); [| |exact P0|exact P1|exact P2|exact P3|exact P4|exact P7|reflexivity|reflexivity| |].
  - rewrite mean_square_steady by (destruct U; lia). rewrite Rminus_eq_0, cos_0. fold laser_watts. f_equal. field.
  - unfold Q2R. cbn. lra.
  - intros s L. unfold phase_optics, optics. cbn [edge_act cid both Nat.eqb Nat.add snd]. rewrite P5. exact (phase_shifter_exact (Q2R q) p s U L).
  - intros s L. unfold phase_optics, optics. cbn [edge_act cid both Nat.eqb Nat.add snd]. rewrite P6. exact (phase_shifter_exact (Q2R q) p s U L).
Qed.
(* derivatives of the squared reading *)
Lemma fringe_step : forall A b u, derivable_pt_lim (fun x => A * (1 + cos (x - b))) u (- A * sin (u - b)).
Proof.
  intros A b u. replace (- A * sin (u - b)) with (A * (- sin (u - b))) by ring. apply (derivable_pt_lim_scal (fun x => 1 + cos (x - b)) A u).
  replace (- sin (u - b)) with (0 + - sin (u - b) * (1 - 0)) by ring. apply (derivable_pt_lim_plus (fun _ => 1) (fun x => cos (x - b))); [apply derivable_pt_lim_const|].
  apply (derivable_pt_lim_comp (fun x => x - b) cos); [apply (derivable_pt_lim_minus id (fun _ => b)); [apply derivable_pt_lim_id|apply derivable_pt_lim_const]|apply derivable_pt_lim_cos].
Qed.
Lemma squared_slope : forall y u, derivable_pt_lim (fun x => squared x y) u (- (laser_watts * laser_watts / 2) * ((1 + cos (u - y)) * sin (u - y))).
Proof.
  intros y u. unfold squared. set (A := laser_watts / 2). replace (- (laser_watts * laser_watts / 2) * ((1 + cos (u - y)) * sin (u - y))) with (- A * sin (u - y) * (A * (1 + cos (u - y))) + A * (1 + cos (u - y)) * (- A * sin (u - y))) by (unfold A; field).
  apply (derivable_pt_lim_mult (fun x => A * (1 + cos (x - y))) (fun x => A * (1 + cos (x - y)))); apply fringe_step.
Qed.
Lemma turned_lim : forall (f : R -> R) c u d, derivable_pt_lim f (c - u) d -> derivable_pt_lim (fun y => f (c - y)) u (d * (0 - 1)).
Proof.
  intros f c u d H. apply (derivable_pt_lim_comp (fun y => c - y) f); [|exact H]. apply (derivable_pt_lim_minus (fun _ => c) id); [apply derivable_pt_lim_const|apply derivable_pt_lim_id].
Qed.
Lemma squared_second : forall c, derivable_pt_lim (fun y => - (laser_watts * laser_watts / 2) * ((1 + cos (c - y)) * sin (c - y))) c (laser_watts * laser_watts).
Proof.
  intros c. pose proof (turned_lim (fun u => - (laser_watts * laser_watts / 2) * ((1 + cos u) * sin u)) c c (- (laser_watts * laser_watts))) as T. replace (- (laser_watts * laser_watts) * (0 - 1)) with (laser_watts * laser_watts) in T by ring. apply T. clear T. rewrite Rminus_eq_0.
  replace (- (laser_watts * laser_watts)) with (- (laser_watts * laser_watts / 2) * ((0 + - sin 0) * sin 0 + (1 + cos 0) * cos 0)) by (rewrite sin_0, cos_0; field).
  apply (derivable_pt_lim_scal (fun u => (1 + cos u) * sin u)). apply (derivable_pt_lim_mult (fun u => 1 + cos u) sin); [|apply derivable_pt_lim_sin].
  apply (derivable_pt_lim_plus (fun _ => 1) cos); [apply derivable_pt_lim_const|apply derivable_pt_lim_cos].
Qed.
(* the same components with the same values: the graph that holds the evaluator's phase
   shifters has a score of minus the fourth power of the laser power, its copy zero *)
Example C73_case : (exists st', second_order process grid8 (shifters 100) 3 105 106 st' (Ok (- laser_watts ^ 4))) /\
  (exists st', second_order process grid8 (shifters 200) 3 105 106 st' (Ok 0)) /\
  forall st' score, second_order process grid8 (shifters 200) 3 105 106 st' (Ok score) -> score = 0.
Proof.
  destruct (process_params 100 (or_introl eq_refl)) as (_ & _ & _ & _ & _ & P5 & P6 & _). assert (Ph : exists q, half_pi 1 = Num q) by (eexists; reflexivity). destruct Ph as (q & Ph). rewrite Ph in P5, P6. cbn [Nat.add] in P5, P6.
  destruct (shifters_ok 200 (or_intror eq_refl)) as [W2 _].
  destruct (C73_foreign process grid8 (shifters 200) 3 105 106 W2) as [Z Ex].
  { intros c Hc. vm_compute in Hc. repeat (destruct Hc as [<-|Hc]; [split; discriminate|]). destruct Hc. }
  split; [|split; [|exact Z]].
  - destruct (params_has _ _ _ P5) as (o1 & H1). destruct (params_has _ _ _ P6) as (o2 & H2). destruct (assign_reads process 105 o1 [Num q] [Num q] H1) as (st1 & A1 & _ & R1).
    destruct (params_has _ _ _ (R1 106%nat o2 [Num q] ltac:(discriminate) H2)) as (o2' & H2'). destruct (assign_reads st1 106 o2' [Num q] [Num q] H2') as (st2 & A2 & _).
    exists st2. replace (- laser_watts ^ 4) with (- (Rabs 0 + laser_watts * laser_watts * (laser_watts * laser_watts))) by (rewrite Rabs_R0; ring).
    apply (so_score process grid8 (shifters 100) 3 105 106 (Num q) (Q2R q) (Num q) (Q2R q) 0 (fun y => - (laser_watts * laser_watts / 2) * ((1 + cos (Q2R q - y)) * sin (Q2R q - y))) (laser_watts * laser_watts) st1 st2); try assumption.
    + vm_compute. lia.
    + unfold current_phase. rewrite P5. reflexivity.
    + unfold current_phase. rewrite P6. reflexivity.
    + apply (diff_value _ _ (fun x => squared x (Q2R q))); [intros x; apply own_function, grid8_usable|]. pose proof (squared_slope (Q2R q) (Q2R q)) as D. rewrite Rminus_eq_0, sin_0, !Rmult_0_r in D. exact D.
    + intros y. apply (diff_value _ _ (fun x => squared x y)); [intros x; apply own_function, grid8_usable|apply squared_slope].
    + apply squared_second.
  - pose proof (copy_function grid8 0 0 grid8_usable) as Cf. rewrite foreign_function in Cf; [|exact W2|intros c Hc; vm_compute in Hc; repeat (destruct Hc as [<-|Hc]; [split; discriminate|]); destruct Hc].
    destruct (snd (simulate process grid8 (shifters 200) (repeat C0 (n_samples grid8)) [])) as [[]|er] eqn:Sm; [|discriminate Cf]. cbn [bind] in Cf. unfold measure in Cf.
    destruct (saved (fst (simulate process grid8 (shifters 200) (repeat C0 (n_samples grid8)) [])) (PNode 3)) as [s|] eqn:Sv; [|discriminate Cf].
    apply (Ex (mkE 1 2 0 (mkED (mkComp 205 PhaseShifter true) PhaseShifter)) (mkE 1 2 1 (mkED (mkComp 206 PhaseShifter true) PhaseShifter)) q q s);
      [right; left; reflexivity|right; right; left; reflexivity|discriminate|reflexivity|reflexivity|discriminate|exact P5|exact P6|first [exact Sm|reflexivity]|reflexivity].
Qed.
(* the graph that holds both shifters, the evaluator constructed with the first one twice: it
   can be evaluated, and the score is zero although the reading depends on the phase *)
Example C73_same_case : (exists q, forall x y, phase_function mean_square process grid8 (shifters 100) 3 (both 105 105 x y) = Ok (squared y q)) /\
  exists st', second_order process grid8 (shifters 100) 3 105 105 st' (Ok 0).
Proof.
  destruct (process_params 100 (or_introl eq_refl)) as (P0 & P1 & P2 & P3 & P4 & P5 & P6 & P7). assert (Ph : exists q, half_pi 1 = Num q) by (eexists; reflexivity). destruct Ph as (q & Ph). rewrite Ph in P5, P6. cbn [Nat.add] in P5, P6. destruct (shifters_ok 100 (or_introl eq_refl)) as [W A].
  assert (K : forall x y, phase_function mean_square process grid8 (shifters 100) 3 (both 105 105 x y) = Ok (squared y (Q2R q))).
  { intros x y. pose proof grid8_usable as U. unfold shifters. rewrite (arms_function process grid8 100 _ _ (both 105 105 x y) mean_square (4 # 100) (tl (sp_def (spec_of ContinuousWaveLaser))) y (Q2R q) W A); [| |exact P0|exact P1|exact P2|exact P3|exact P4|exact P7|reflexivity|reflexivity| |].
    - rewrite mean_square_steady by (destruct U; lia). reflexivity.
    - unfold Q2R. cbn. lra.
    - intros s L. unfold phase_optics. cbn [edge_act cid both Nat.eqb Nat.add snd]. exact (phase_shifter_exact y grid8 s U L).
    - intros s L. unfold phase_optics, optics. cbn [edge_act cid both Nat.eqb Nat.add snd]. rewrite P6. exact (phase_shifter_exact (Q2R q) grid8 s U L). }
  split; [exists (Q2R q); exact K|].
  destruct (params_has _ _ _ P5) as (o1 & H1). destruct (assign_reads process 105 o1 [Num q] [Num q] H1) as (st1 & A1 & R1 & _). destruct (params_has _ _ _ R1) as (o2 & H2). destruct (assign_reads st1 105 o2 [Num q] [Num q] H2) as (st2 & A2 & _).
  exists st2. replace 0 with (- (Rabs 0 + 0 * 0)) by (rewrite Rabs_R0; ring). apply (so_score process grid8 (shifters 100) 3 105 105 (Num q) (Q2R q) (Num q) (Q2R q) 0 (fun _ => 0) 0 st1 st2); try assumption.
  - vm_compute. lia.
  - unfold current_phase. rewrite P5. reflexivity.
  - unfold current_phase. rewrite P5. reflexivity.
  - apply (diff_value _ _ (fun _ => squared (Q2R q) (Q2R q))); [intros x; apply K|apply derivable_pt_lim_const].
  - intros y. apply (diff_value _ _ (fun _ => squared y (Q2R q))); [intros x; apply K|apply derivable_pt_lim_const].
  - apply derivable_pt_lim_const.
Qed.
