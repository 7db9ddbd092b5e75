(** C77: the searches of the scripts. *)
From Coq Require Import Reals Qreals List Arith Bool Lia Lra ZArith QArith.
From Verif Require Import Base GraphModel GraphSpec GraphProofs TopoProofs OperatorsModel OperatorsSpec OperatorsProofs EvolutionProofs TypingProofs InitProofs ParamsModel ParamsSpec EvolverModel EvolverSpec EvolveSpec BuildProofs
  PropagateModel PropagateSpec PropagateProofs FlowSpec FlowProofs Complex ArrayModel ComponentModel ComponentSpec DetectorSpec MoreComponentsSpec ComponentProofs GridProofs
  OpticsModel OpticsSpec OpticsSessionProofs OpticsComponentProofs OpticsProofs NoiseModel NoisyModel NoisySpec NoisyProofs EvaluatorModel EvaluatorSpec RadioProofs PhaseSpec EvolutionExamples EvolverExamples OpticsProperties NoisyProperties EvaluatorProperties PowerProperties
  SearchModel SearchSpec SearchProofs.
Import ListNotations.
Local Open Scope nat_scope.

(* a session brings in only classes that the library offers *)
Theorem C77_classes : forall L ops nodes edges cur parent g w0 w c, lib_ok L -> NoDup ops -> NoDup (map fst nodes) ->
  NoDup (map (fun p => cid (snd p)) nodes ++ map (fun p => cid (snd p)) edges) ->
  init_graph nodes edges = Some g -> typed g -> new_world nodes edges cur parent = Ok w0 -> session L ops w0 w ->
  contains (w_graph w) c -> contains g c \/ on_offer L c.
Proof.
  intros L ops nodes edges cur parent g w0 w c LO OND ND DO Hi T Hw Hs. destruct (session_healthy L ops nodes edges cur parent g w0 w LO OND ND DO Hi T Hw Hs) as (_ & os & _ & Rn).
  destruct (init_graph_some nodes edges g ND Hi) as (Wg & Ag & _). exact (run_classes L g os (w_graph w) Rn Wg Ag c).
Qed.
Print Assumptions C77_classes.

(* it exchanges no protected detector, and puts nothing behind it *)
Theorem C77_detectors : forall L ops nodes edges cur parent g w0 w D, lib_ok L -> NoDup ops -> NoDup (map fst nodes) ->
  NoDup (map (fun p => cid (snd p)) nodes ++ map (fun p => cid (snd p)) edges) ->
  init_graph nodes edges = Some g -> typed g -> new_world nodes edges cur parent = Ok w0 -> session L ops w0 w ->
  measured_by D g -> measured_by D (w_graph w).
Proof.
  intros L ops nodes edges cur parent g w0 w D LO OND ND DO Hi T Hw Hs. destruct (session_healthy L ops nodes edges cur parent g w0 w LO OND ND DO Hi T Hw Hs) as (((_ & _ & Ty & _) & _) & os & _ & Rn).
  destruct (init_graph_some nodes edges g ND Hi) as (Wg & Ag & _). exact (run_measured L D g os (w_graph w) LO Rn Wg Ag T Ty).
Qed.
Print Assumptions C77_detectors.

(* evaluation of a graph that a session reaches: it raises exactly if a square filter has no
   width or the bins of a wave shaper do not fit; without noise and with noise *)
Theorem C77_evaluated : forall X (score : list C -> res (option X)) L ops nodes edges cur parent g w0 w p n sink old, lib_ok L -> NoDup ops -> NoDup (map fst nodes) ->
  NoDup (map (fun p => cid (snd p)) nodes ++ map (fun p => cid (snd p)) edges) ->
  init_graph nodes edges = Some g -> typed g -> new_world nodes edges cur parent = Ok w0 -> session L ops w0 w ->
  usable (n_samples p) (window_t p) -> bin_spans (n_samples p) (window_t p) n -> single_feed g -> no_output g sink ->
  (forall x, length x = n_samples p -> exists s, score x = Ok s) ->
  let fine := ~ blocked (w_graph w) (w_store w) /\ (contains (w_graph w) WaveShaper -> shapeable (n_samples p) n) in
  ((exists s, snd (evaluate score (w_store w) p (w_graph w) (PNode sink) old) = Ok s) <-> fine) /\
  (forall draws old', fitted (n_samples p) draws -> ((exists s, snd (evaluate_noisy score (w_store w) p draws (w_graph w) (PNode sink) old') = Ok s) <-> fine)).
Proof.
  intros X score L ops nodes edges cur parent g w0 w p n sink old LO OND ND DO Hi T Hw Hs U Hn Sf No Tot fine.
  destruct (session_healthy L ops nodes edges cur parent g w0 w LO OND ND DO Hi T Hw Hs) as (((W & A & Ty & _) & _) & os & _ & Rn). assert (Fu := session_furnished L ops nodes edges cur parent g w0 w LO OND ND DO Hi T Hw Hs).
  destruct (init_graph_some nodes edges g ND Hi) as (Wg & Ag & _). destruct (run_terminals L g os (w_graph w) Rn Wg Ag) as (_ & T2 & _). apply T2 in No. apply (run_single_feed L g os (w_graph w) Rn Wg Ag) in Sf. split.
  - destruct (C70_evaluate _ score (w_store w) p (w_graph w) n sink old W A Ty Fu U Hn) as (H1 & _ & H3). split.
    + intros (s & E). destruct (Classical_Prop.classic fine) as [F|F]; [exact F|]. exfalso. destruct H1 as (e & E'); [intros (_ & F'); exact (F F')|]. congruence.
    + intros F. destruct (H3 (conj Sf F) No) as (x & Lx & _ & E). rewrite E. apply Tot. exact Lx.
  - intros draws old' Fd. pose proof (C76_exact (w_store w) p draws (w_graph w) (repeat C0 (n_samples p)) n old' [] W A Ty Fu U (repeat_length _ _) Hn Fd) as K. cbv zeta in K. destruct K as (K1 & _ & K3).
    unfold evaluate_noisy. destruct (simulate_noisy (w_store w) p draws (w_graph w) (repeat C0 (n_samples p)) old') as [sv r] eqn:Es. cbn [fst snd] in *. split.
    + intros (s & E). destruct r as [[]|]; cbn [bind] in E; [|discriminate]. apply (proj1 K1). reflexivity.
    + intros F. assert (r = Ok tt) by (apply K1; split; assumption). subst r. cbn [bind].
      assert (Pr := noisy_outcome (w_store w) p draws (w_graph w) (repeat C0 (n_samples p)) old'). rewrite Es in Pr. specialize (Pr eq_refl). cbn [fst] in Pr. destruct (measurable _ (w_graph w) _ W _ _ _ _ Pr) as (M & _). destruct (proj2 (M sink) No) as (s & Em). rewrite Em. cbn [bind].
      destruct s as [x|].
      * apply Tot. apply (K3 eq_refl (PNode sink)). unfold measure in Em. destruct (saved sv (PNode sink)) as [f|]; [|discriminate]. cbn in Em. injection Em as Em. exact (f_equal Some Em).
      * destruct (Tot (plain p None) (repeat_length _ _)) as (s & ->). cbn [bind]. eauto.
Qed.
Print Assumptions C77_evaluated.

(* no square filter and no wave shaper: nothing is raised *)
Theorem C77_safe : forall X (score : list C -> res (option X)) L ops nodes edges cur parent g w0 w p n sink old, lib_ok L -> NoDup ops -> NoDup (map fst nodes) ->
  NoDup (map (fun p => cid (snd p)) nodes ++ map (fun p => cid (snd p)) edges) ->
  init_graph nodes edges = Some g -> typed g -> new_world nodes edges cur parent = Ok w0 -> session L ops w0 w ->
  usable (n_samples p) (window_t p) -> bin_spans (n_samples p) (window_t p) n -> single_feed g -> no_output g sink ->
  (forall x, length x = n_samples p -> exists s, score x = Ok s) ->
  ~ contains g SquareFilter -> ~ In SquareFilter (edge_models L) -> (contains g WaveShaper \/ In WaveShaper (edge_models L) -> shapeable (n_samples p) n) ->
  (exists s, snd (evaluate score (w_store w) p (w_graph w) (PNode sink) old) = Ok s) /\
  (forall draws old', fitted (n_samples p) draws -> exists s, snd (evaluate_noisy score (w_store w) p draws (w_graph w) (PNode sink) old') = Ok s).
Proof.
  intros X score L ops nodes edges cur parent g w0 w p n sink old LO OND ND DO Hi T Hw Hs U Hn Sf No Tot N1 N2 Sh.
  pose proof (C77_evaluated X score L ops nodes edges cur parent g w0 w p n sink old LO OND ND DO Hi T Hw Hs U Hn Sf No Tot) as K. cbv zeta in K. destruct K as [K1 K2].
  assert (Of : forall c, family_of c = SinglePath -> on_offer L c -> In c (edge_models L)).
  { intros c Fc [H|[H|H]]; [exact H|apply (lib_source L LO) in H; rewrite Fc in H; discriminate|apply (lib_sink L LO) in H; rewrite Fc in H; discriminate]. }
  assert (Cl := fun c => C77_classes L ops nodes edges cur parent g w0 w c LO OND ND DO Hi T Hw Hs).
  assert (F : ~ blocked (w_graph w) (w_store w) /\ (contains (w_graph w) WaveShaper -> shapeable (n_samples p) n)).
  { split.
    - intros (e & o & ps & v & He & Ec & _). destruct (Cl SquareFilter (ex_intro _ e (conj He Ec))) as [H|H]; [exact (N1 H)|exact (N2 (Of SquareFilter eq_refl H))].
    - intros H. apply Sh. destruct (Cl WaveShaper H) as [Q|Q]; [left; exact Q|right; exact (Of WaveShaper eq_refl Q)]. }
  split; [apply K1; exact F|]. intros draws old' Fd. apply K2; assumption.
Qed.
Print Assumptions C77_safe.

(** ** The grids of the scripts *)
Local Open Scope R_scope.
Lemma samples_INR : INR script_samples = 16384.
Proof. unfold script_samples. rewrite pow_INR. change (INR 2) with 2. ring. Qed.
Lemma samples_pos : (2 <= script_samples)%nat.
Proof. apply Nat.leb_le. vm_compute. reflexivity. Qed.
Lemma less_INR : INR (script_samples - 1) = 16383.
Proof. rewrite minus_INR by (pose proof samples_pos; lia). rewrite samples_INR. change (INR 1) with 1. ring. Qed.
Lemma samples_even : Nat.Even script_samples.
Proof. exists (Nat.pow 2 13). vm_compute. reflexivity. Qed.
Lemma script_usable : forall W, 0 < W -> usable (n_samples (script_grid W)) (window_t (script_grid W)).
Proof. intros W H. split; [exact samples_pos|exact H]. Qed.
Lemma script_bins : forall W n, INR n <= 16384 * (W / 16383) * (12 * 10 ^ 9) < INR n + 1 -> bin_spans (n_samples (script_grid W)) (window_t (script_grid W)) n.
Proof. intros W n H. unfold bin_spans. cbn [n_samples window_t script_grid]. rewrite samples_INR, less_INR. exact H. Qed.
Lemma script_shapeable : forall W n, (n <= 200)%nat -> shapeable (n_samples (script_grid W)) n.
Proof. intros W n H. right. left. cbn [n_samples script_grid]. assert ((15 * 200 <= script_samples)%nat) by (apply Nat.leb_le; vm_compute; reflexivity). lia. Qed.
Lemma script_df : forall W, 0 < W -> grid_df (script_grid W) = 16384 / W / 16383.
Proof. intros W H. rewrite grid_df_val. cbn [n_samples window_t script_grid]. rewrite samples_INR, less_INR. reflexivity. Qed.
Lemma radio_windows : forall W, W = radio_window \/ W = batch_window -> / 10 ^ 9 <= W <= 2 * / 10 ^ 9 /\ exists n, (n <= 200)%nat /\ bin_spans (n_samples (script_grid W)) (window_t (script_grid W)) n.
Proof.
  intros W [-> | ->]; unfold radio_window, batch_window; (split; [cbn [pow]; lra|]).
  - exists 24%nat. split; [lia|]. apply script_bins. simpl INR. cbn [pow]. lra.
  - exists 12%nat. split; [lia|]. apply script_bins. simpl INR. cbn [pow]. lra.
Qed.

(** ** Radio frequency waveforms *)
Lemma sampled_strength : forall shape h A n w x, 0 < A -> (forall t, 0 <= shape t <= 1) -> sampled shape h A n w x -> strength x <= sqrt (INR n) * A.
Proof.
  intros shape h A n w x HA Hb (L & V). replace (sqrt (INR n) * A) with (sqrt (INR n * A ^ 2)) by (rewrite sqrt_mult; [|apply pos_INR|cbn [pow]; nra]; f_equal; apply sqrt_pow2; lra). apply sqrt_le_1_alt.
  assert (K : forall z, In z x -> Cnorm2 z <= A ^ 2).
  { intros z Hz. apply (In_nth _ _ C0) in Hz. destruct Hz as (i & Hi & <-). rewrite V by lia. rewrite Cnorm2_RtoC. set (t := shape _). assert (0 <= t <= 1) by apply Hb. cbn [pow]. assert (0 <= A * t <= A) by nra. nra. }
  rewrite <- L. clear L V. induction x as [|z x IH]; [cbn; lra|]. change (energy (z :: x)) with (Cnorm2 z + energy x). cbn [length]. rewrite S_INR. pose proof (K z (or_introl eq_refl)). assert (energy x <= INR (length x) * A ^ 2) by (apply IH; intros y Hy; apply K; right; exact Hy). lra.
Qed.
Lemma named_target : forall w h A p, named w -> 0 < A -> exists target, waveform_target w h A p = Ok target /\ length target = n_samples p /\ real_field target /\ strength target <= sqrt (INR (n_samples p)) * A.
Proof.
  intros w h A p N HA. destruct (C68_waveforms h A p) as ((a & Ea & Sa) & (b & Eb & Sb) & (c & Ec & Sc) & (d & Ed & Sd)).
  destruct N as [-> |[-> |[-> | ->]]]; eexists; (split; [eassumption|]).
  - split; [apply Sa|]. split; [exact (sampled_real _ _ _ _ _ _ Sa)|]. apply (sampled_strength falling h A _ (window_t p)); [exact HA|intros t; apply shapes_bounded|exact Sa].
  - split; [apply Sb|]. split; [exact (sampled_real _ _ _ _ _ _ Sb)|]. apply (sampled_strength rising h A _ (window_t p)); [exact HA|intros t; apply shapes_bounded|exact Sb].
  - split; [apply Sc|]. split; [exact (sampled_real _ _ _ _ _ _ Sc)|]. apply (sampled_strength triangle h A _ (window_t p)); [exact HA|intros t; apply shapes_bounded|exact Sc].
  - split; [apply Sd|]. split; [exact (sampled_real _ _ _ _ _ _ Sd)|]. apply (sampled_strength gate h A _ (window_t p)); [exact HA|intros t; apply shapes_bounded|exact Sd].
Qed.
Lemma radio_limit : forall p f A w state V s, usable (n_samples p) (window_t p) -> named w -> 0 < f -> 0 < A -> length state = n_samples p -> 0 <= V -> strength state <= sqrt (INR (n_samples p)) * V ->
  radio_score p f A w state = Ok (Some s) -> im s = 0 /\ 0 <= re s <= (V / A + 1) ^ 2.
Proof.
  intros p f A w state V s U Nm Hf HA L HV B E. destruct (named_target w f A p Nm HA) as (target & Et & Lt & Rt & Bt).
  destruct (C68_bounds p f A w target state s U Et Lt Rt L Hf ltac:(lra) E) as (I & B1 & B2). split; [exact I|]. set (N := INR (n_samples p)) in *. assert (HN : 0 < N) by (apply lt_0_INR; destruct U; lia).
  assert (S1 : 0 <= strength state) by apply sqrt_pos. assert (S2 : 0 <= strength target) by apply sqrt_pos. assert (A2 : 0 < A ^ 2) by (apply pow_lt; exact HA). assert (NA : 0 < N * A ^ 2) by (apply Rmult_lt_0_compat; assumption).
  assert (0 <= (strength state - strength target) ^ 2) by apply pow2_ge_0. split.
  - apply (Rmult_le_reg_l (N * A ^ 2)); [exact NA|]. rewrite Rmult_0_r. lra.
  - apply (Rmult_le_reg_l (N * A ^ 2)); [exact NA|]. eapply Rle_trans; [exact B2|]. replace (N * A ^ 2 * (V / A + 1) ^ 2) with ((sqrt N * (V + A)) ^ 2).
    + apply pow_incr. split; lra.
    + rewrite Rpow_mult_distr. replace (sqrt N ^ 2) with N by (cbn [pow]; rewrite Rmult_1_r; symmetry; apply sqrt_sqrt; lra). field. lra.
Qed.

(* the start graphs *)
Definition started (edges : list (eid * comp)) (nodes : list (node * comp)) : graph := match init_graph nodes edges with Some g => g | None => empty_graph end.
Lemma radio_built : init_graph three_nodes radio_edges = Some (started radio_edges three_nodes).
Proof. vm_compute. reflexivity. Qed.
Lemma filter_built : init_graph four_nodes filter_edges = Some (started filter_edges four_nodes).
Proof. vm_compute. reflexivity. Qed.
Lemma suppression_built : init_graph three_nodes suppression_edges = Some (started suppression_edges three_nodes).
Proof. vm_compute. reflexivity. Qed.
Lemma three_nodup : NoDup (map fst three_nodes).
Proof. simpl; repeat constructor; simpl; intuition discriminate. Qed.
Lemma four_nodup : NoDup (map fst four_nodes).
Proof. simpl; repeat constructor; simpl; intuition discriminate. Qed.
Lemma radio_objects : NoDup (map (fun p => cid (snd p)) three_nodes ++ map (fun p => cid (snd p)) radio_edges).
Proof. simpl; repeat constructor; simpl; intuition discriminate. Qed.
Lemma filter_objects : NoDup (map (fun p => cid (snd p)) four_nodes ++ map (fun p => cid (snd p)) filter_edges).
Proof. simpl; repeat constructor; simpl; intuition discriminate. Qed.
Lemma suppression_objects : NoDup (map (fun p => cid (snd p)) three_nodes ++ map (fun p => cid (snd p)) suppression_edges).
Proof. simpl; repeat constructor; simpl; intuition discriminate. Qed.
Lemma radio_typed : typed (started radio_edges three_nodes).
Proof. apply typedb_typed; [exact (proj1 (init_graph_some _ _ _ three_nodup radio_built))|vm_compute; reflexivity]. Qed.
Lemma filter_typed : typed (started filter_edges four_nodes).
Proof. apply typedb_typed; [exact (proj1 (init_graph_some _ _ _ four_nodup filter_built))|vm_compute; reflexivity]. Qed.
Lemma suppression_typed : typed (started suppression_edges three_nodes).
Proof. apply typedb_typed; [exact (proj1 (init_graph_some _ _ _ three_nodup suppression_built))|vm_compute; reflexivity]. Qed.
Lemma radio_metered : measured_by Photodiode (started radio_edges three_nodes).
Proof.
  split; [|intros e (He & Ni & No)]; [intros e He Ni No|]; vm_compute in He; destruct He as [<-|[<-|[]]]; try (split; reflexivity).
  - destruct No as [_ X]. eapply X; [vm_compute; right; left; reflexivity|reflexivity].
  - destruct Ni as [_ X]. eapply X; [vm_compute; left; reflexivity|reflexivity].
  - destruct No as [_ X]. exfalso. eapply X; [vm_compute; right; left; reflexivity|reflexivity].
Qed.
Lemma radio_end : no_output (started radio_edges three_nodes) 2.
Proof. split; [eexists; vm_compute; right; right; left; reflexivity|]. intros e He. vm_compute in He. destruct He as [<-|[<-|[]]]; discriminate. Qed.
Lemma radio_fed : ~ no_input (started radio_edges three_nodes) 2.
Proof. intros [_ X]. eapply X; [vm_compute; right; left; reflexivity|reflexivity]. Qed.
Lemma radio_feed : single_feed (started radio_edges three_nodes).
Proof. apply single_feed_check. vm_compute. reflexivity. Qed.
Lemma filter_end : no_output (started filter_edges four_nodes) 3.
Proof. split; [eexists; vm_compute; right; right; right; left; reflexivity|]. intros e He. vm_compute in He. destruct He as [<-|[<-|[<-|[]]]]; discriminate. Qed.
Lemma filter_feed : single_feed (started filter_edges four_nodes).
Proof. apply single_feed_check. vm_compute. reflexivity. Qed.
Lemma suppression_end : no_output (started suppression_edges three_nodes) 2.
Proof. split; [eexists; vm_compute; right; right; left; reflexivity|]. intros e He. vm_compute in He. destruct He as [<-|[<-|[]]]; discriminate. Qed.
Lemma suppression_feed : single_feed (started suppression_edges three_nodes).
Proof. apply single_feed_check. vm_compute. reflexivity. Qed.

Lemma radio_total : forall W w x, W = radio_window \/ W = batch_window -> named w -> length x = n_samples (script_grid W) -> exists s, radio_score (script_grid W) radio_harmonic radio_amplitude w x = Ok s.
Proof.
  intros W w x HW Nm L. destruct (radio_windows W HW) as [B _]. assert (W0 : 0 < W) by (cbn [pow] in B; lra). assert (HA : 0 < radio_amplitude) by (unfold radio_amplitude; lra). assert (Hf : 0 < radio_harmonic) by (unfold radio_harmonic; cbn [pow]; lra).
  destruct (named_target w radio_harmonic radio_amplitude (script_grid W) Nm HA) as (target & Et & Lt & Rt & _).
  apply (C68_errors (script_grid W) radio_harmonic radio_amplitude w target x (script_usable W W0) Et Lt Rt L Hf ltac:(lra)). cbn [n_samples window_t script_grid]. rewrite samples_INR. apply (Rmult_lt_reg_r W); [exact W0|]. unfold Rdiv. rewrite Rmult_assoc, Rinv_l, Rmult_1_r by lra. unfold radio_harmonic. cbn [pow] in B |- *. lra.
Qed.
Lemma noise_limit : forall W, / 10 ^ 9 <= W -> thermal + shot_limit (script_grid W) <= 48 / 10 ^ 4.
Proof.
  intros W HW. assert (W0 : 0 < W) by (cbn [pow] in HW; lra). assert (T : thermal <= 3 / 10 ^ 4).
  { unfold thermal. rewrite <- (sqrt_pow2 (3 / 10 ^ 4)) by (cbn [pow]; lra). apply sqrt_le_1_alt. unfold Boltzmann. cbn [pow]. lra. }
  assert (S : shot_limit (script_grid W) <= 45 / 10 ^ 4); [|cbn [pow] in *; lra].
  unfold shot_limit. rewrite <- (sqrt_pow2 (45 / 10 ^ 4)) by (cbn [pow]; lra). apply sqrt_le_1_alt. rewrite script_df by exact W0. cbn [n_samples script_grid]. rewrite samples_INR.
  apply (Rmult_le_reg_r W); [exact W0|]. replace ((elementary_charge * 50 * (15 / 100) + elementary_charge * 2500 * (5 / 10 ^ 9)) * (16384 * (16384 / W / 16383)) * W) with ((elementary_charge * 50 * (15 / 100) + elementary_charge * 2500 * (5 / 10 ^ 9)) * (16384 * 16384 / 16383)) by (field; lra).
  apply Rle_trans with ((45 / 10 ^ 4) ^ 2 * / 10 ^ 9); [unfold elementary_charge; cbn [pow]; lra|]. apply Rmult_le_compat_l; [apply pow2_ge_0|exact HW].
Qed.
Lemma laser_only : forall w0 w ops cur parent, NoDup ops -> new_world three_nodes radio_edges cur parent = Ok w0 -> session default_library ops w0 w ->
  wf (w_graph w) /\ acyclic (w_graph w) /\ typed (w_graph w) /\ furnished (w_graph w) (w_store w) /\ no_output (w_graph w) 2 /\ ~ no_input (w_graph w) 2 /\ measured_by Photodiode (w_graph w).
Proof.
  intros w0 w ops cur parent OND Hw Hs. destruct (session_healthy _ ops _ _ cur parent _ w0 w default_lib_ok OND three_nodup radio_objects radio_built radio_typed Hw Hs) as (((W & A & Ty & _) & _) & os & _ & Rn).
  destruct (init_graph_some _ _ _ three_nodup radio_built) as (Wg & Ag & _). destruct (run_terminals _ _ os (w_graph w) Rn Wg Ag) as (T1 & T2 & _).
  split; [exact W|]. split; [exact A|]. split; [exact Ty|]. split; [exact (session_furnished _ ops _ _ cur parent _ w0 w default_lib_ok OND three_nodup radio_objects radio_built radio_typed Hw Hs)|]. split; [apply T2, radio_end|]. split; [rewrite T1; exact radio_fed|].
  exact (C77_detectors _ ops _ _ cur parent _ w0 w Photodiode default_lib_ok OND three_nodup radio_objects radio_built radio_typed Hw Hs radio_metered).
Qed.

(* the search for radio frequency waveforms *)
Theorem C77_radio : forall W wave ops cur parent w0 w old, W = radio_window \/ W = batch_window -> named wave -> NoDup ops ->
  new_world three_nodes radio_edges cur parent = Ok w0 -> session default_library ops w0 w ->
  let score := radio_score (script_grid W) radio_harmonic radio_amplitude wave in
  let clean := snd (evaluate score (w_store w) (script_grid W) (w_graph w) (PNode 2) old) in
  ((exists s, clean = Ok s) <-> ~ blocked (w_graph w) (w_store w)) /\
  (forall s, clean = Ok (Some s) -> im s = 0 /\ 0 <= re s <= 7225 / 100) /\
  forall draws old', fitted script_samples draws ->
    let noisy := snd (evaluate_noisy score (w_store w) (script_grid W) draws (w_graph w) (PNode 2) old') in
    ((exists s, noisy = Ok s) <-> ~ blocked (w_graph w) (w_store w)) /\
    (forall s, noisy = Ok (Some s) -> im s = 0 /\ 0 <= re s <= 77).
Proof.
  intros W wave ops cur parent w0 w old HW Nm OND Hw Hs score clean. destruct (radio_windows W HW) as (B & n & Hn & Bn). assert (W0 : 0 < W) by (cbn [pow] in B; lra). pose proof (script_usable W W0) as U.
  assert (HA : 0 < radio_amplitude) by (unfold radio_amplitude; lra). assert (Hf : 0 < radio_harmonic) by (unfold radio_harmonic; cbn [pow]; lra).
  pose proof (C77_evaluated _ score default_library ops _ _ cur parent _ w0 w (script_grid W) n 2 old default_lib_ok OND three_nodup radio_objects radio_built radio_typed Hw Hs U Bn radio_feed radio_end (fun x Lx => radio_total W wave x HW Nm Lx)) as K. cbv zeta in K. destruct K as [K1 K2].
  destruct (laser_only w0 w ops cur parent OND Hw Hs) as (Wf & Ac & Ty & Fu & No & Ni & Mb).
  split; [|split].
  - unfold clean. rewrite K1. split; [tauto|]. intros H. split; [exact H|]. intros _. apply script_shapeable. exact Hn.
  - intros s Es. unfold clean, evaluate in Es. destruct (simulate (w_store w) (script_grid W) (w_graph w) (repeat C0 (n_samples (script_grid W))) old) as [sv r] eqn:Er. cbn [snd] in Es. destruct r as [[]|]; cbn [bind] in Es; [|discriminate].
    destruct (plain_reading (w_store w) (script_grid W) (w_graph w) n Wf Ac Ty Fu U Bn 2%nat No Ni Photodiode _ old sv (repeat_length _ _) Mb Er) as (ps & x & y & Al & Lx & Ec & Ey). unfold measure in Es. rewrite Ey in Es. cbn [of_option bind] in Es.
    destruct (plain_photodiode ps (script_grid W) x y Al U Lx Ec) as [Ly By].
    destruct (radio_limit (script_grid W) radio_harmonic radio_amplitude wave y (15 / 100) s U Nm Hf HA Ly ltac:(lra)) as (I1 & I2 & I3); [|exact Es|].
    + replace (sqrt (INR (n_samples (script_grid W))) * (15 / 100)) with (sqrt (INR (n_samples (script_grid W)) * (15 / 100) ^ 2)) by (rewrite sqrt_mult by (try apply pos_INR; lra); f_equal; apply sqrt_pow2; lra). apply sqrt_le_1_alt. exact By.
    + split; [exact I1|]. split; [exact I2|]. unfold radio_amplitude in I3. lra.
  - intros draws old' Fd noisy. split.
    + unfold noisy. rewrite (K2 draws old' Fd). split; [tauto|]. intros H. split; [exact H|]. intros _. apply script_shapeable. exact Hn.
    + intros s Es. unfold noisy, evaluate_noisy in Es. destruct (simulate_noisy (w_store w) (script_grid W) draws (w_graph w) (repeat C0 (n_samples (script_grid W))) old') as [sv r] eqn:Er. cbn [snd] in Es. destruct r as [[]|]; cbn [bind] in Es; [|discriminate].
      destruct (noisy_reading (w_store w) (script_grid W) (w_graph w) n Wf Ac Ty Fu U Bn 2%nat No Ni Photodiode draws _ old' sv (repeat_length _ _) Fd Mb Er) as (ps & i & x & y & Al & Kx & Ec & Ey & Ky). unfold measure in Es. rewrite Ey in Es. cbn [of_option bind] in Es.
      destruct y as [y|]; [|destruct (score (plain (script_grid W) None)); cbn [bind] in Es; discriminate].
      pose proof (noisy_photodiode ps (script_grid W) (draws i) x y Al U Kx (fun k => Fd i k) Ec) as By. pose proof (noise_limit W (proj1 B)) as Nl. pose proof (sqrt_pos (4 * Boltzmann * 293 * 10 ^ 11 * 50)) as P1. fold thermal in P1. assert (P2 : 0 <= shot_limit (script_grid W)) by apply sqrt_pos.
      destruct (radio_limit (script_grid W) radio_harmonic radio_amplitude wave y (15 / 100 + 48 / 10 ^ 4) s U Nm Hf HA (Ky y eq_refl) ltac:(cbn [pow]; lra)) as (I1 & I2 & I3); [|exact Es|].
      * eapply Rle_trans; [exact By|]. apply Rmult_le_compat_l; [apply sqrt_pos|]. lra.
      * split; [exact I1|]. split; [exact I2|]. unfold radio_amplitude in I3. cbn [pow] in I3. lra.
Qed.
Print Assumptions C77_radio.

(* the search for filters: evaluation raises nothing, the score is a percentage or nan *)
Theorem C77_filter : forall L ops cur parent w0 w old, custom_library filter_classes = Some L -> NoDup ops ->
  new_world four_nodes filter_edges cur parent = Ok w0 -> session L ops w0 w ->
  let p := script_grid filter_window in
  exists r, snd (evaluate (filter_design_score p) (w_store w) p (w_graph w) (PNode 3) old) = Ok r /\ forall s, r = Some s -> -1 <= s <= 0.
Proof.
  intros L ops cur parent w0 w old HL OND Hw Hs p. assert (W0 : 0 < filter_window) by (unfold filter_window; cbn [pow]; lra). pose proof (script_usable _ W0) as U. fold p in U. assert (LO := custom_lib_ok _ _ HL).
  assert (Bn : bin_spans (n_samples p) (window_t p) 120) by (apply script_bins; unfold filter_window; rewrite INR_IZR_INZ; cbn [Z.of_nat Pos.of_succ_nat Pos.succ]; cbn [pow]; lra).
  assert (Tot : forall x, length x = n_samples p -> exists s, filter_design_score p x = Ok s).
  { intros x Lx. destruct (C69_filter p x U Lx) as [D N]. destruct (Classical_Prop.classic (dark x)) as [H|H]; [eauto|]. destruct (N H) as (s & b & E & _). eauto. }
  pose proof (C77_safe _ (filter_design_score p) L ops _ _ cur parent _ w0 w p 120 3 old LO OND four_nodup filter_objects filter_built filter_typed Hw Hs U Bn filter_feed filter_end Tot) as K.
  assert (HL' : edge_models L = [IntegratedDelayLine; PhaseShifter]) by (injection HL as <-; vm_compute; reflexivity).
  destruct K as [(r & E) _].
  - intros (e & He & Ec). vm_compute in He. destruct He as [<-|[<-|[<-|[]]]]; discriminate Ec.
  - rewrite HL'. intros [H|[H|[]]]; discriminate H.
  - intros _. apply script_shapeable. lia.
  - exists r. split; [exact E|]. intros s ->.
    destruct (session_healthy L ops _ _ cur parent _ w0 w LO OND four_nodup filter_objects filter_built filter_typed Hw Hs) as (((W & A & Ty & _) & _) & os & _ & Rn). assert (Fu := session_furnished L ops _ _ cur parent _ w0 w LO OND four_nodup filter_objects filter_built filter_typed Hw Hs).
    destruct (C70_evaluate _ (filter_design_score p) (w_store w) p (w_graph w) 120 3 old W A Ty Fu U Bn) as (H1 & H2 & H3).
    destruct (Classical_Prop.classic (single_feed (w_graph w) /\ ~ blocked (w_graph w) (w_store w) /\ (contains (w_graph w) WaveShaper -> shapeable (n_samples p) 120))) as [F|F]; [|destruct (H1 F) as (er & X); rewrite X in E; discriminate].
    destruct (Classical_Prop.classic (no_output (w_graph w) 3)) as [O|O]; [|rewrite (H2 F O) in E; discriminate]. destruct (H3 F O) as (x & Lx & _ & X). rewrite X in E. exact (proj1 (C69_filter_bounds p x s U Lx E)).
Qed.
Print Assumptions C77_filter.

(* the search for noise suppression: evaluation raises nothing, the score is a sum of squares;
   with noise too, and there it is a number whenever the draws of one connection are not all zero *)
Theorem C77_suppression : forall L ops cur parent w0 w signal tp old, custom_library suppression_classes = Some L -> NoDup ops ->
  new_world three_nodes suppression_edges cur parent = Ok w0 -> session L ops w0 w ->
  length signal = script_samples -> noise_suppression_init (Some signal) = Ok tp ->
  let p := script_grid suppression_window in
  let score := fun x => do s <- noise_suppression_score tp x; Ok (Some s) in
  (exists s, snd (evaluate score (w_store w) p (w_graph w) (PNode 2) old) = Ok (Some s) /\ 0 <= s) /\
  forall draws old', fitted script_samples draws ->
    exists r, snd (evaluate_noisy score (w_store w) p draws (w_graph w) (PNode 2) old') = Ok r /\ (forall s, r = Some s -> 0 <= s) /\ (lively draws -> r <> None).
Proof.
  intros L ops cur parent w0 w signal tp old HL OND Hw Hs Ls Ht p score. assert (W0 : 0 < suppression_window) by (unfold suppression_window; cbn [pow]; lra). pose proof (script_usable _ W0) as U. fold p in U. assert (LO := custom_lib_ok _ _ HL).
  assert (Bn : bin_spans (n_samples p) (window_t p) 120) by (apply script_bins; unfold suppression_window; rewrite INR_IZR_INZ; cbn [Z.of_nat Pos.of_succ_nat Pos.succ]; cbn [pow]; lra).
  assert (V : forall x, length x = n_samples p -> exists s, score x = Ok (Some s) /\ 0 <= s).
  { intros x Lx. destruct (C69_noise signal tp x Ht) as (s & E & _ & P & _); [rewrite Ls; exact Lx|]. exists s. unfold score. rewrite E. split; [reflexivity|exact P]. }
  assert (Tot : forall x, length x = n_samples p -> exists s, score x = Ok s) by (intros x Lx; destruct (V x Lx) as (s & E & _); eauto).
  assert (HL' : edge_models L = [PhaseShifter; IntegratedDelayLine]) by (injection HL as <-; vm_compute; reflexivity).
  assert (G : forall c, c <> NoisySignal -> c <> ElectricFieldMeasurementDevice -> ~ contains (started suppression_edges three_nodes) c).
  { intros c N1 N2 (e & He & Ec). vm_compute in He. destruct He as [<-|[<-|[]]]; cbn in Ec; congruence. }
  destruct (C77_safe _ score L ops _ _ cur parent _ w0 w p 120 2 old LO OND three_nodup suppression_objects suppression_built suppression_typed Hw Hs U Bn suppression_feed suppression_end Tot) as [(r & E) K2].
  { apply G; discriminate. } { rewrite HL'. intros [H|[H|[]]]; discriminate H. } { intros _. apply script_shapeable. lia. }
  destruct (session_healthy L ops _ _ cur parent _ w0 w LO OND three_nodup suppression_objects suppression_built suppression_typed Hw Hs) as (((W & A & Ty & _) & _) & os & _ & Rn). assert (Fu := session_furnished L ops _ _ cur parent _ w0 w LO OND three_nodup suppression_objects suppression_built suppression_typed Hw Hs).
  split.
  - destruct (C70_evaluate _ score (w_store w) p (w_graph w) 120 2 old W A Ty Fu U Bn) as (H1 & H2 & H3).
    destruct (Classical_Prop.classic (single_feed (w_graph w) /\ ~ blocked (w_graph w) (w_store w) /\ (contains (w_graph w) WaveShaper -> shapeable (n_samples p) 120))) as [F|F]; [|destruct (H1 F) as (er & X); rewrite X in E; discriminate].
    destruct (Classical_Prop.classic (no_output (w_graph w) 2)) as [O|O]; [|rewrite (H2 F O) in E; discriminate]. destruct (H3 F O) as (x & Lx & _ & X). destruct (V x Lx) as (s & Es & P). exists s. rewrite X, Es. split; [reflexivity|exact P].
  - intros draws old' Fd. destruct (K2 draws old' Fd) as (q & Eq). exists q. split; [exact Eq|]. unfold evaluate_noisy in Eq. destruct (simulate_noisy (w_store w) p draws (w_graph w) (repeat C0 (n_samples p)) old') as [sv rr] eqn:Er. cbn [snd] in Eq. destruct rr as [[]|]; cbn [bind] in Eq; [|discriminate]. unfold measure in Eq. destruct (saved sv (PNode 2)) as [y|] eqn:Ey; cbn [of_option bind] in Eq; [|discriminate].
    assert (NA : ~ contains (w_graph w) OpticalAmplifier).
    { intros H. destruct (C77_classes L ops _ _ cur parent _ w0 w OpticalAmplifier LO OND three_nodup suppression_objects suppression_built suppression_typed Hw Hs H) as [X|X]; [revert X; apply G; discriminate|]. injection HL as <-. vm_compute in X. repeat (destruct X as [X|X]; try discriminate X; try contradiction). }
    assert (Nb := C76_numbers (w_store w) p draws (w_graph w) (repeat C0 (n_samples p)) 120 old' W A Ty Fu U (repeat_length _ _) Bn Fd samples_even). cbv zeta in Nb. rewrite Er in Nb. cbn [fst snd] in Nb.
    destruct y as [y|].
    + assert (Ly : length y = n_samples p).
      { pose proof (C76_exact (w_store w) p draws (w_graph w) (repeat C0 (n_samples p)) 120 old' [] W A Ty Fu U (repeat_length _ _) Bn Fd) as K. cbv zeta in K. rewrite Er in K. cbn [fst snd] in K. exact (proj2 (proj2 K) eq_refl _ _ Ey). }
      destruct (V y Ly) as (s' & Es & P). rewrite Es in Eq. injection Eq as <-. split; [intros s X; injection X as <-; exact P|intros _; discriminate].
    + split; [intros s ->; destruct (score (plain p None)); cbn [bind] in Eq; discriminate|]. intros Lv. exfalso. destruct (Nb Lv (fun H => False_ind _ (NA H)) eq_refl _ _ Ey) as (z & Z & _). discriminate Z.
Qed.
Print Assumptions C77_suppression.

(* the three start graphs: nothing is raised, for every waveform and on both windows; the score
   of the noise suppression is a number, with noise too *)
Definition radio_world : world := the (new_world three_nodes radio_edges 1 2).
Definition filter_world : world := the (new_world four_nodes filter_edges 1 2).
Definition suppression_world : world := the (new_world three_nodes suppression_edges 1 2).
Lemma radio_world_built : new_world three_nodes radio_edges 1 2 = Ok radio_world.
Proof. vm_compute. reflexivity. Qed.
Lemma filter_world_built : new_world four_nodes filter_edges 1 2 = Ok filter_world.
Proof. vm_compute. reflexivity. Qed.
Lemma suppression_world_built : new_world three_nodes suppression_edges 1 2 = Ok suppression_world.
Proof. vm_compute. reflexivity. Qed.
Example C77_radio_case : forall W wave, W = radio_window \/ W = batch_window -> named wave ->
  let score := radio_score (script_grid W) radio_harmonic radio_amplitude wave in
  (exists s, snd (evaluate score (w_store radio_world) (script_grid W) (w_graph radio_world) (PNode 2) []) = Ok s) /\
  (exists s, snd (evaluate_noisy score (w_store radio_world) (script_grid W) (ones script_samples) (w_graph radio_world) (PNode 2) []) = Ok s).
Proof.
  intros W wave HW Nm score. assert (NB : ~ blocked (w_graph radio_world) (w_store radio_world)).
  { intros (e & o & ps & v & He & Ec & _). vm_compute in He. destruct He as [<-|[<-|[]]]; discriminate Ec. }
  pose proof (C77_radio W wave evo_op_list 1 2 radio_world radio_world [] HW Nm ops_nodup radio_world_built (ses_start _ _ _)) as K. cbv zeta in K. destruct K as (K1 & _ & K2). split; [apply K1; exact NB|]. apply (K2 (ones script_samples) [] (ones_fitted _)). exact NB.
Qed.
Example C77_suppression_case : forall signal tp, length signal = script_samples -> noise_suppression_init (Some signal) = Ok tp ->
  let score := fun x => do s <- noise_suppression_score tp x; Ok (Some s) in
  exists s, snd (evaluate_noisy score (w_store suppression_world) (script_grid suppression_window) (ones script_samples) (w_graph suppression_world) (PNode 2) []) = Ok (Some s) /\ 0 <= s.
Proof.
  intros signal tp Ls Ht score. destruct (custom_library suppression_classes) as [L|] eqn:HL; [|discriminate HL].
  pose proof (C77_suppression L evo_op_list 1 2 suppression_world suppression_world signal tp [] HL ops_nodup suppression_world_built (ses_start _ _ _) Ls Ht) as K. cbv zeta in K. destruct K as [_ K]. destruct (K (ones script_samples) [] (ones_fitted _)) as (r & E & P & N).
  destruct r as [s|]; [|exfalso; apply N; [apply ones_lively; exact (Nat.lt_le_trans 0 2 _ ltac:(lia) samples_pos)|reflexivity]]. exists s. split; [exact E|]. apply P. reflexivity.
Qed.
Example C77_filter_case : exists L r, custom_library filter_classes = Some L /\ snd (evaluate (filter_design_score (script_grid filter_window)) (w_store filter_world) (script_grid filter_window) (w_graph filter_world) (PNode 3) []) = Ok r.
Proof.
  destruct (custom_library filter_classes) as [L|] eqn:HL; [|discriminate HL]. pose proof (C77_filter L evo_op_list 1 2 filter_world filter_world [] HL ops_nodup filter_world_built (ses_start _ _ _)) as K. cbv zeta in K. destruct K as (r & E & _). exists L, r. split; [reflexivity|exact E].
Qed.
(* none of the operators can bring in a photodiode or a laser in the search for filters *)
Example C77_classes_case : exists L, custom_library filter_classes = Some L /\ forall ops w, NoDup ops -> session L ops filter_world w -> forall c, contains (w_graph w) c -> In c [Impulse; Waveguide; ElectricFieldMeasurementDevice; IntegratedDelayLine; PhaseShifter].
Proof.
  destruct (custom_library filter_classes) as [L|] eqn:HL; [|discriminate HL]. exists L. split; [reflexivity|]. intros ops w OND Hs c Hc.
  destruct (C77_classes L ops _ _ 1 2 _ filter_world w c (custom_lib_ok _ _ HL) OND four_nodup filter_objects filter_built filter_typed filter_world_built Hs Hc) as [(e & He & <-)|[H|[H|H]]].
  - vm_compute in He. destruct He as [<-|[<-|[<-|[]]]]; cbn; auto.
  - injection HL as <-. vm_compute in H. destruct H as [<-|[<-|[]]]; cbn; auto 6.
  - injection HL as <-. vm_compute in H. contradiction.
  - injection HL as <-. vm_compute in H. contradiction.
Qed.
Example C77_detectors_case : forall ops w, NoDup ops -> session default_library ops radio_world w -> exists e, ending (w_graph w) e /\ e_dst e = 2%nat /\ ccls (e_model (e_dat e)) = Photodiode.
Proof.
  intros ops w OND Hs. destruct (laser_only radio_world w ops 1 2 OND radio_world_built Hs) as (Wf & _ & _ & _ & No & Ni & In_ & M).
  destruct (Classical_Prop.classic (exists e, In e (g_edges (w_graph w)) /\ e_dst e = 2%nat)) as [(e & He & Ed)|H].
  - exists e. assert (En : ending (w_graph w) e).
    { rewrite <- Ed in No. split; [exact He|]. split; [|exact No]. intros X. exact (In_ e He X No). }
    split; [exact En|]. split; [exact Ed|]. exact (proj1 (M e En)).
  - exfalso. apply Ni. split; [exact (proj1 No)|]. intros e He Ed. apply H. eauto.
Qed.
