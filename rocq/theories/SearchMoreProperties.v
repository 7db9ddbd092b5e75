(** C77, continued: two more searches of the scripts. *)
From Coq Require Import Reals Qreals List Arith Bool Lia Lra ZArith QArith.
From Verif Require Import Base GraphModel GraphSpec GraphProofs TopoProofs OperatorsModel OperatorsSpec OperatorsProofs EvolutionProofs TypingProofs InitProofs ParamsModel ParamsSpec EvolverModel EvolverSpec EvolveSpec BuildProofs
  PropagateModel PropagateSpec PropagateProofs FlowSpec FlowProofs Complex ArrayModel ComponentModel ComponentSpec DetectorSpec MoreComponentsSpec ComponentProofs GridProofs
  OpticsModel OpticsSpec OpticsSessionProofs OpticsComponentProofs OpticsProofs NoiseModel NoisyModel NoisySpec NoisyProofs EvaluatorModel EvaluatorSpec RadioProofs PhaseSpec EvolutionExamples EvolverExamples OpticsProperties NoisyProperties EvaluatorProperties PowerProperties
  SearchModel SearchSpec SearchProofs SearchProperties SearchMoreModel.
Import ListNotations.
Local Open Scope R_scope.

Lemma pulse_INR : INR pulse_samples = 32768.
Proof. unfold pulse_samples. rewrite pow_INR. change (INR 2) with 2. ring. Qed.
Lemma pulse_samples_pos : (2 <= pulse_samples)%nat.
Proof. apply Nat.leb_le. vm_compute. reflexivity. Qed.
Lemma pulse_less_INR : INR (pulse_samples - 1) = 32767.
Proof. rewrite minus_INR by (pose proof pulse_samples_pos; lia). rewrite pulse_INR. change (INR 1) with 1. ring. Qed.
Lemma pulse_usable : usable (n_samples pulse_grid) (window_t pulse_grid).
Proof. split; [exact pulse_samples_pos|]. cbn [window_t pulse_grid pow]. lra. Qed.
Lemma pulse_bins : bin_spans (n_samples pulse_grid) (window_t pulse_grid) 48.
Proof. unfold bin_spans. cbn [n_samples window_t pulse_grid]. rewrite pulse_INR, pulse_less_INR. rewrite INR_IZR_INZ. cbn [Z.of_nat Pos.of_succ_nat Pos.succ pow]. lra. Qed.
Lemma pulse_shapeable : shapeable (n_samples pulse_grid) 48.
Proof. right. left. cbn [n_samples pulse_grid]. apply Nat.leb_le. vm_compute. reflexivity. Qed.
Lemma pulse_built : init_graph three_nodes pulse_edges = Some (started pulse_edges three_nodes).
Proof. vm_compute. reflexivity. Qed.
Lemma pulse_objects : NoDup (map (fun p => cid (snd p)) three_nodes ++ map (fun p => cid (snd p)) pulse_edges).
Proof. simpl; repeat constructor; simpl; intuition discriminate. Qed.
Lemma pulse_typed : typed (started pulse_edges three_nodes).
Proof. apply typedb_typed; [exact (proj1 (init_graph_some _ _ _ three_nodup pulse_built))|vm_compute; reflexivity]. Qed.
Lemma pulse_end : no_output (started pulse_edges three_nodes) 2.
Proof. split; [eexists; vm_compute; right; right; left; reflexivity|]. intros e He. vm_compute in He. destruct He as [<-|[<-|[]]]; discriminate. Qed.
Lemma pulse_fed : ~ no_input (started pulse_edges three_nodes) 2.
Proof. intros [_ X]. eapply X; [vm_compute; right; left; reflexivity|reflexivity]. Qed.
Lemma pulse_feed : single_feed (started pulse_edges three_nodes).
Proof. apply single_feed_check. vm_compute. reflexivity. Qed.
Lemma pulse_metered : measured_by MeasurementDevice (started pulse_edges three_nodes).
Proof.
  split; [|intros e (He & Ni & No)]; [intros e He Ni No|]; vm_compute in He; destruct He as [<-|[<-|[]]]; try (split; reflexivity).
  - destruct No as [_ X]. eapply X; [vm_compute; right; left; reflexivity|reflexivity].
  - destruct Ni as [_ X]. eapply X; [vm_compute; left; reflexivity|reflexivity].
  - destruct No as [_ X]. exfalso. eapply X; [vm_compute; right; left; reflexivity|reflexivity].
Qed.
Lemma pulse_rep_pos : 0 < pulse_rep_t.
Proof. unfold pulse_rep_t. cbn [pow]. lra. Qed.
Lemma pulse_total : forall target x, length target = pulse_samples -> length x = n_samples pulse_grid -> exists s, pulse_score pulse_grid target pulse_rep_t x = Ok s.
Proof.
  intros target x Lt Lx. apply (C67_errors pulse_grid target pulse_rep_t x pulse_usable Lt Lx pulse_rep_pos). cbn [n_samples window_t pulse_grid]. rewrite pulse_INR. unfold pulse_rep_t. cbn [pow]. lra.
Qed.
Lemma powers_real : forall x, real_field (map RtoC (measurement_device x)).
Proof. intros x z Hz. apply in_map_iff in Hz as (r & <- & _). reflexivity. Qed.

(* the search for repetition rates, for every target of the grid's length *)
Theorem C77_pulse : forall target ops cur parent w0 w old, length target = pulse_samples -> NoDup ops ->
  new_world three_nodes pulse_edges cur parent = Ok w0 -> session default_library ops w0 w ->
  let score := pulse_score pulse_grid target pulse_rep_t in
  let clean := snd (evaluate score (w_store w) pulse_grid (w_graph w) (PNode 2) old) in
  ((exists s, clean = Ok s) <-> ~ blocked (w_graph w) (w_store w)) /\
  (forall s, clean = Ok (Some s) -> im s = 0 /\ 0 <= re s) /\
  forall draws old', fitted pulse_samples draws ->
    let noisy := snd (evaluate_noisy score (w_store w) pulse_grid draws (w_graph w) (PNode 2) old') in
    ((exists s, noisy = Ok s) <-> ~ blocked (w_graph w) (w_store w)) /\
    (forall s, noisy = Ok (Some s) -> im s = 0 /\ 0 <= re s).
Proof.
  intros target ops cur parent w0 w old Lt OND Hw Hs score clean.
  pose proof (C77_evaluated _ score default_library ops _ _ cur parent _ w0 w pulse_grid 48 2 old default_lib_ok OND three_nodup pulse_objects pulse_built pulse_typed Hw Hs pulse_usable pulse_bins pulse_feed pulse_end (fun x Lx => pulse_total target x Lt Lx)) as K. cbv zeta in K. destruct K as [K1 K2].
  destruct (session_healthy _ ops _ _ cur parent _ w0 w default_lib_ok OND three_nodup pulse_objects pulse_built pulse_typed Hw Hs) as (((Wf & Ac & Ty & _) & _) & os & _ & Rn).
  destruct (init_graph_some _ _ _ three_nodup pulse_built) as (Wg & Ag & _). destruct (run_terminals _ _ os (w_graph w) Rn Wg Ag) as (T1 & T2 & _).
  assert (Fu := session_furnished _ ops _ _ cur parent _ w0 w default_lib_ok OND three_nodup pulse_objects pulse_built pulse_typed Hw Hs).
  assert (No : no_output (w_graph w) 2) by (apply T2, pulse_end). assert (Ni : ~ no_input (w_graph w) 2) by (rewrite T1; exact pulse_fed).
  assert (Mb := C77_detectors _ ops _ _ cur parent _ w0 w MeasurementDevice default_lib_ok OND three_nodup pulse_objects pulse_built pulse_typed Hw Hs pulse_metered).
  assert (V : forall x y s, length y = n_samples pulse_grid -> y = map RtoC (measurement_device x) -> score y = Ok (Some s) -> im s = 0 /\ 0 <= re s).
  { intros x y s Ly -> E. destruct (C67_bounds pulse_grid target pulse_rep_t _ s pulse_usable Lt Ly pulse_rep_pos (powers_real x) E) as (I & B & _). split; [exact I|]. eapply Rle_trans; [apply pow2_ge_0|exact B]. }
  split; [|split].
  - unfold clean. rewrite K1. split; [tauto|]. intros H. split; [exact H|]. intros _. exact pulse_shapeable.
  - intros s Es. unfold clean, evaluate in Es. destruct (simulate (w_store w) pulse_grid (w_graph w) (repeat C0 (n_samples pulse_grid)) old) as [sv r] eqn:Er. cbn [snd] in Es. destruct r as [[]|]; cbn [bind] in Es; [|discriminate].
    destruct (plain_reading (w_store w) pulse_grid (w_graph w) 48 Wf Ac Ty Fu pulse_usable pulse_bins 2%nat No Ni MeasurementDevice _ old sv (repeat_length _ _) Mb Er) as (ps & x & y & Al & Lx & Ec & Ey). unfold measure in Es. rewrite Ey in Es. cbn [of_option bind] in Es.
    cbn [component] in Ec. injection Ec as <-. apply (V x _ s) in Es; [exact Es| |reflexivity]. unfold measurement_device, power_. rewrite !map_length. exact Lx.
  - intros draws old' Fd noisy. split.
    + unfold noisy. rewrite (K2 draws old' Fd). split; [tauto|]. intros H. split; [exact H|]. intros _. exact pulse_shapeable.
    + intros s Es. unfold noisy, evaluate_noisy in Es. destruct (simulate_noisy (w_store w) pulse_grid draws (w_graph w) (repeat C0 (n_samples pulse_grid)) old') as [sv r] eqn:Er. cbn [snd] in Es. destruct r as [[]|]; cbn [bind] in Es; [|discriminate].
      destruct (noisy_reading (w_store w) pulse_grid (w_graph w) 48 Wf Ac Ty Fu pulse_usable pulse_bins 2%nat No Ni MeasurementDevice draws _ old' sv (repeat_length _ _) Fd Mb Er) as (ps & i & x & y & Al & Kx & Ec & Ey & Ky). unfold measure in Es. rewrite Ey in Es. cbn [of_option bind] in Es.
      destruct y as [y|]; [|destruct (score (plain pulse_grid None)); cbn [bind] in Es; discriminate].
      destruct x as [x|]; [|apply none_stays in Ec; [discriminate Ec|discriminate]].
      rewrite silent_component in Ec; [|intros [H|[H|[H|[H|H]]]]; discriminate H|exact Al]. cbn [component res_map] in Ec. injection Ec as <-.
      exact (V x _ s (Ky _ eq_refl) eq_refl Es).
Qed.
Print Assumptions C77_pulse.

Lemma better_pos : 0 < better_window. Proof. unfold better_window. cbn [pow]. lra. Qed.
Lemma better_bins : bin_spans (n_samples (script_grid better_window)) (window_t (script_grid better_window)) 240.
Proof. apply script_bins. unfold better_window. rewrite INR_IZR_INZ. cbn [Z.of_nat Pos.of_succ_nat Pos.succ pow]. lra. Qed.
Lemma better_shapeable : shapeable (n_samples (script_grid better_window)) 240.
Proof. right. left. apply Nat.leb_le. vm_compute. reflexivity. Qed.
Lemma amplitude_irrelevant : forall h a b x tf sc i p st, radio_shift (mkRadioWaveform h a x tf sc i) p st = radio_shift (mkRadioWaveform h b x tf sc i) p st.
Proof. intros. unfold radio_shift. cbn [rw_harmonic_ind rw_target_f rw_scale_array]. reflexivity. Qed.
Lemma better_raises : forall target x, length target = script_samples -> real_field target -> length x = script_samples -> better_score (script_grid better_window) better_harmonic target x = Err TypeError.
Proof.
  intros target x Lt Rt Lx. assert (Hf : 0 < better_harmonic) by (unfold better_harmonic; cbn [pow]; lra).
  destruct (C68_errors (script_grid better_window) better_harmonic 1 (Samples target) target x (script_usable _ better_pos) eq_refl Lt Rt Lx Hf ltac:(lra)) as [_ H]. destruct H as (s & E).
  { cbn [n_samples window_t script_grid]. rewrite samples_INR. unfold better_harmonic, better_window. cbn [pow]. lra. }
  unfold radio_score, radio_waveform_init in E. unfold better_score, radio_waveform_init. cbn [waveform_target bind] in *. destruct (fft_ target (grid_dt (script_grid better_window))) as [tf|]; cbn [bind] in *; [|discriminate].
  unfold radio_similarity in E. rewrite (amplitude_irrelevant _ 0 1). destruct (radio_shift (mkRadioWaveform better_harmonic 1 _ _ _ _) (script_grid better_window) x) as [[y|]|]; cbn [bind] in *; [|reflexivity|discriminate].
  cbn [rw_target] in *. destruct (broadcast (fun a b => Cmul (Csub a b) (Csub a b)) y target); cbn [bind] in *; [reflexivity|discriminate].
Qed.

(* the search for better waveforms cannot evaluate a single graph: without square filters of no width the error is that of None ** 2 *)
Theorem C77_better : forall target ops cur parent w0 w old, length target = script_samples -> real_field target -> NoDup ops ->
  new_world three_nodes radio_edges cur parent = Ok w0 -> session default_library ops w0 w ->
  let p := script_grid better_window in
  let result := snd (evaluate (better_score p better_harmonic target) (w_store w) p (w_graph w) (PNode 2) old) in
  (forall s, result <> Ok s) /\ (~ blocked (w_graph w) (w_store w) -> result = Err TypeError).
Proof.
  intros target ops cur parent w0 w old Lt Rt OND Hw Hs p result. destruct (laser_only w0 w ops cur parent OND Hw Hs) as (Wf & Ac & Ty & Fu & No & Ni & Mb).
  destruct (C70_evaluate _ (better_score p better_harmonic target) (w_store w) p (w_graph w) 240 2 old Wf Ac Ty Fu (script_usable _ better_pos) better_bins) as (H1 & H2 & H3).
  destruct (session_healthy _ ops _ _ cur parent _ w0 w default_lib_ok OND three_nodup radio_objects radio_built radio_typed Hw Hs) as (_ & os & _ & Rn). destruct (init_graph_some _ _ _ three_nodup radio_built) as (Wg & Ag & _).
  assert (Sf : single_feed (w_graph w)) by (apply (run_single_feed _ _ os (w_graph w) Rn Wg Ag), radio_feed).
  assert (T : ~ blocked (w_graph w) (w_store w) -> result = Err TypeError).
  { intros NB. destruct (H3 (conj Sf (conj NB (fun _ => better_shapeable))) No) as (x & Lx & _ & X). unfold result. rewrite X. exact (better_raises target x Lt Rt Lx). }
  split; [|exact T]. intros s E. destruct (Classical_Prop.classic (blocked (w_graph w) (w_store w))) as [B|B]; [|rewrite (T B) in E; discriminate].
  destruct H1 as (er & X); [intros (_ & NB & _); exact (NB B)|]. unfold result in E. rewrite X in E. discriminate.
Qed.
Print Assumptions C77_better.

(* the components that stay through every search: instances and where they come from *)
Inductive script_start : list (node * comp) -> list (eid * comp) -> list comp -> Prop :=
| start_radio : script_start three_nodes radio_edges [mkComp 105 Photodiode true]
| start_filter : script_start four_nodes filter_edges [mkComp 104 Impulse true; mkComp 106 ElectricFieldMeasurementDevice true]
| start_suppression : script_start three_nodes suppression_edges [mkComp 104 NoisySignal true; mkComp 105 ElectricFieldMeasurementDevice true]
| start_pulse : script_start three_nodes pulse_edges [mkComp 104 PulsedLaser true; mkComp 105 MeasurementDevice true].
Theorem C77_kept : forall L ops nodes edges kept cur parent w0 w, lib_ok L -> NoDup ops -> script_start nodes edges kept ->
  new_world nodes edges cur parent = Ok w0 -> session L ops w0 w -> Permutation.Permutation (protected_components (w_graph w)) kept.
Proof.
  intros L ops nodes edges kept cur parent w0 w LO OND S Hw Hs.
  assert (K : exists g, init_graph nodes edges = Some g /\ NoDup (map fst nodes) /\ NoDup (map (fun p => cid (snd p)) nodes ++ map (fun p => cid (snd p)) edges) /\ typed g /\ protected_components g = kept).
  { destruct S; eexists; (split; [first [exact radio_built|exact filter_built|exact suppression_built|exact pulse_built]|]); (split; [first [exact three_nodup|exact four_nodup]|]);
      (split; [first [exact radio_objects|exact filter_objects|exact suppression_objects|exact pulse_objects]|]); (split; [first [exact radio_typed|exact filter_typed|exact suppression_typed|exact pulse_typed]|vm_compute; reflexivity]). }
  destruct K as (g & Hi & ND & DO & T & <-). destruct (session_healthy L ops nodes edges cur parent g w0 w LO OND ND DO Hi T Hw Hs) as (_ & os & _ & Rn).
  destruct (init_graph_some _ _ _ ND Hi) as (Wg & Ag & _). exact (run_protected L g os (w_graph w) Rn Wg Ag).
Qed.
Print Assumptions C77_kept.

(* the start graphs *)
Definition pulse_world : world := the (new_world three_nodes pulse_edges 1 2).
Lemma pulse_world_built : new_world three_nodes pulse_edges 1 2 = Ok pulse_world.
Proof. vm_compute. reflexivity. Qed.
Example C77_pulse_case : forall target, length target = pulse_samples ->
  let score := pulse_score pulse_grid target pulse_rep_t in
  (exists s, snd (evaluate score (w_store pulse_world) pulse_grid (w_graph pulse_world) (PNode 2) []) = Ok s) /\
  (exists s, snd (evaluate_noisy score (w_store pulse_world) pulse_grid (ones pulse_samples) (w_graph pulse_world) (PNode 2) []) = Ok s).
Proof.
  intros target Lt score. assert (NB : ~ blocked (w_graph pulse_world) (w_store pulse_world)).
  { intros (e & o & ps & v & He & Ec & _). vm_compute in He. destruct He as [<-|[<-|[]]]; discriminate Ec. }
  pose proof (C77_pulse target evo_op_list 1 2 pulse_world pulse_world [] Lt ops_nodup pulse_world_built (ses_start _ _ _)) as K. cbv zeta in K. destruct K as (K1 & _ & K2). split; [apply K1; exact NB|]. apply (K2 (ones pulse_samples) [] (ones_fitted _)). exact NB.
Qed.
Example C77_better_case : let p := script_grid better_window in
  snd (evaluate (better_score p better_harmonic (repeat C1 script_samples)) (w_store radio_world) p (w_graph radio_world) (PNode 2) []) = Err TypeError.
Proof.
  intros p. pose proof (C77_better (repeat C1 script_samples) evo_op_list 1 2 radio_world radio_world [] (repeat_length _ _)) as K. destruct K as [_ K].
  - intros z Hz. apply repeat_spec in Hz. subst z. reflexivity.
  - exact ops_nodup.
  - exact radio_world_built.
  - apply ses_start.
  - apply K. intros (e & o & ps & v & He & Ec & _). vm_compute in He. destruct He as [<-|[<-|[]]]; discriminate Ec.
Qed.
