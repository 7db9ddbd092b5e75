(** C76: simulations with noise. *)
From Coq Require Import Reals Qreals List Arith Bool Lia Lra ZArith QArith Relations.
From Verif Require Import Base GraphModel GraphSpec GraphProofs TopoProofs OperatorsModel OperatorsSpec OperatorsProofs EvolutionProofs TypingProofs InitProofs ParamsModel ParamsSpec EvolverModel EvolverSpec EvolveSpec BuildProofs
  PropagateModel PropagateSpec PropagateProofs FlowSpec FlowProofs Complex ArrayModel ComponentModel ComponentSpec DetectorSpec MoreComponentsSpec ComponentProofs
  OpticsModel OpticsSpec OpticsSessionProofs OpticsComponentProofs OpticsProofs NoisyModel NoisySpec NoisyProofs EvolutionExamples EvolverExamples OpticsProperties.
Import ListNotations.
Local Open Scope nat_scope.

(* the noise changes neither whether a simulation raises nor the lengths of the arrays *)
Theorem C76_exact : forall st p draws g src n old old', wf g -> acyclic g -> typed g -> furnished g st ->
  usable (n_samples p) (window_t p) -> length src = n_samples p -> bin_spans (n_samples p) (window_t p) n -> fitted (n_samples p) draws ->
  let outcome := simulate_noisy st p draws g src old in
  (snd outcome = Ok tt <-> single_feed g /\ ~ blocked g st /\ (contains g WaveShaper -> shapeable (n_samples p) n)) /\
  (snd outcome = Ok tt <-> snd (simulate st p g src old') = Ok tt) /\
  (snd outcome = Ok tt -> forall pl x, saved (fst outcome) pl = Some (Some x) -> length x = n_samples p).
Proof.
  intros st p draws g src n old old' W A T Fu U Ls Hn D outcome. destruct (noisy_exact st p g src n draws W A T Fu U Ls Hn D old) as [K1 K2].
  assert (E : snd outcome = Ok tt <-> single_feed g /\ ~ blocked g st /\ (contains g WaveShaper -> shapeable (n_samples p) n)).
  { rewrite <- K1. unfold outcome, simulate_noisy. destruct (propagate (noisy_optics st p draws) g (Some src) tt old) as [[[] sv] r]. cbn [snd]. split; [intros ->; exists sv; reflexivity|intros (sv' & H); injection H as _ ->; reflexivity]. }
  split; [exact E|]. split.
  - rewrite E. symmetry. apply (C65_exact st p g src n old'); assumption.
  - intros H pl x Hx. apply (K2 tt (fst outcome)) with (pl := pl) (s := Some x); [|exact Hx|reflexivity]. apply noisy_outcome. fold outcome. rewrite <- H. apply surjective_pairing.
Qed.
Print Assumptions C76_exact.

(* an even number of samples: only numbers *)
Theorem C76_numbers : forall st p draws g src n old, wf g -> acyclic g -> typed g -> furnished g st ->
  usable (n_samples p) (window_t p) -> length src = n_samples p -> bin_spans (n_samples p) (window_t p) n -> fitted (n_samples p) draws ->
  Nat.Even (n_samples p) -> lively draws -> (contains g OpticalAmplifier -> optical (n_samples p) (window_t p) (central_wl p)) ->
  let outcome := simulate_noisy st p draws g src old in
  snd outcome = Ok tt -> forall pl s, saved (fst outcome) pl = Some s -> exists x, s = Some x /\ length x = n_samples p.
Proof.
  intros st p draws g src n old W A T Fu U Ls Hn D V Lv O outcome H pl s Hs. apply (noisy_numbers st p g src n draws W A T Fu U Ls Hn D O Lv V old tt (fst outcome)) with (pl := pl); [|exact Hs].
  apply noisy_outcome. fold outcome. rewrite <- H. apply surjective_pairing.
Qed.
Print Assumptions C76_numbers.

(* an odd number of samples: no numbers behind a laser *)
Theorem C76_odd : forall st p draws g src n old, wf g -> acyclic g -> typed g -> furnished g st ->
  usable (n_samples p) (window_t p) -> length src = n_samples p -> bin_spans (n_samples p) (window_t p) n -> fitted (n_samples p) draws -> Nat.Odd (n_samples p) ->
  let outcome := simulate_noisy st p draws g src old in
  snd outcome = Ok tt ->
  (forall a e, is_laser (ccls (e_model (e_dat a))) -> behind g a e -> saved (fst outcome) (PEdge (e_id e)) = Some None) /\
  ((forall a, starting g a -> is_laser (ccls (e_model (e_dat a)))) -> forall sink, no_output g sink -> ~ no_input g sink ->
     saved (fst outcome) (PNode sink) = Some None /\ (forall e, In e (g_edges g) -> saved (fst outcome) (PEdge (e_id e)) = Some None)).
Proof.
  intros st p draws g src n old W A T Fu U Ls Hn D Od outcome H. assert (P : propagate (noisy_optics st p draws) g (Some src) tt old = (tt, fst outcome, Ok tt)) by (apply noisy_outcome; fold outcome; rewrite <- H; apply surjective_pairing).
  destruct (proj1 (propagate_solution (noisy_optics st p draws) g (Some src) W tt old (noisy_steady st p draws g) A) tt (fst outcome) P) as (_ & val & out & Sol & Re & Ro & _).
  assert (Bh : forall a e, is_laser (ccls (e_model (e_dat a))) -> behind g a e -> saved (fst outcome) (PEdge (e_id e)) = Some None).
  { intros a e Lc Be. unfold e_id. rewrite Re by apply Be. f_equal. exact (none_behind st p g src n draws W A T Fu U Ls Hn D Od val out Sol a e Be Lc). }
  split; [exact Bh|]. intros All sink No Ni. split.
  - rewrite Ro by exact No. f_equal. exact (none_end st p g src n draws W A T Fu U Ls Hn D Od val out Sol All sink No Ni).
  - intros e He. destruct (behind_some g W A e He) as (a & Sa & Ba). exact (Bh a e (All a Sa) Ba).
Qed.
Print Assumptions C76_odd.

(* then no score is a number *)
Theorem C76_odd_score : forall X (score : list C -> res (option X)) st p draws g n old sink r, wf g -> acyclic g -> typed g -> furnished g st ->
  usable (n_samples p) (window_t p) -> bin_spans (n_samples p) (window_t p) n -> fitted (n_samples p) draws -> Nat.Odd (n_samples p) ->
  (forall a, starting g a -> is_laser (ccls (e_model (e_dat a)))) -> no_output g sink -> ~ no_input g sink ->
  snd (evaluate_noisy score st p draws g (PNode sink) old) = Ok r -> r = None.
Proof.
  intros X score st p draws g n old sink r W A T Fu U Hn D Od All No Ni E. unfold evaluate_noisy in E.
  destruct (simulate_noisy st p draws g (repeat C0 (n_samples p)) old) as [sv o] eqn:Es. cbn [snd] in E. destruct o as [u|]; cbn [bind] in E; [|discriminate]. destruct u.
  destruct (C76_odd st p draws g (repeat C0 (n_samples p)) n old W A T Fu U (repeat_length _ _) Hn D Od) as [_ K]; [rewrite Es; reflexivity|]. destruct (K All sink No Ni) as [K1 _]. rewrite Es in K1. cbn [fst] in K1.
  unfold measure in E. rewrite K1 in E. cbn [of_option bind] in E. destruct (score (plain p None)); cbn [bind] in E; [|discriminate]. injection E as <-. reflexivity.
Qed.
Print Assumptions C76_odd_score.

(* without noisy components it is the simulation without noise *)
Theorem C76_silent : forall st p draws g src old old', wf g -> furnished g st -> (forall e, In e (g_edges g) -> ~ has_noise (ccls (e_model (e_dat e)))) ->
  snd (simulate_noisy st p draws g src old) = snd (simulate st p g src old') /\
  forall pl, saved (fst (simulate_noisy st p draws g src old)) pl = option_map Some (saved (fst (simulate st p g src old')) pl).
Proof.
  intros st p draws g src old old' W Fu Sil. rewrite (silent_run st p draws g src old' old W Fu Sil). cbn [fst snd]. split; [reflexivity|]. intros pl. apply saved_mapped.
Qed.
Print Assumptions C76_silent.

(* whatever a session does to the graph *)
Theorem C76_session : forall L ops nodes edges cur parent g w0 w p draws src n old, lib_ok L -> NoDup ops -> NoDup (map fst nodes) ->
  NoDup (map (fun p => cid (snd p)) nodes ++ map (fun p => cid (snd p)) edges) ->
  init_graph nodes edges = Some g -> typed g -> new_world nodes edges cur parent = Ok w0 -> session L ops w0 w ->
  usable (n_samples p) (window_t p) -> length src = n_samples p -> bin_spans (n_samples p) (window_t p) n -> fitted (n_samples p) draws ->
  let outcome := simulate_noisy (w_store w) p draws (w_graph w) src old in
  (snd outcome = Ok tt <-> single_feed g /\ ~ blocked (w_graph w) (w_store w) /\ (contains (w_graph w) WaveShaper -> shapeable (n_samples p) n)) /\
  (snd outcome = Ok tt -> Nat.Even (n_samples p) -> lively draws -> optical (n_samples p) (window_t p) (central_wl p) -> forall pl s, saved (fst outcome) pl = Some s -> exists x, s = Some x /\ length x = n_samples p).
Proof.
  intros L ops nodes edges cur parent g w0 w p draws src n old LO OND ND DO Hi T Hw Hs U Ls Hn D outcome.
  destruct (session_healthy L ops nodes edges cur parent g w0 w LO OND ND DO Hi T Hw Hs) as (((W & A & Ty & _) & _) & os & _ & Rn). assert (Fu := session_furnished L ops nodes edges cur parent g w0 w LO OND ND DO Hi T Hw Hs).
  destruct (init_graph_some nodes edges g ND Hi) as (Wg & Ag & _). split.
  - rewrite <- (run_single_feed L g os (w_graph w) Rn Wg Ag). apply (C76_exact (w_store w) p draws (w_graph w) src n old []); assumption.
  - intros H V Lv O. apply (C76_numbers (w_store w) p draws (w_graph w) src n old); auto.
Qed.
Print Assumptions C76_session.

(** Laser, splitter, phase modulator beside wave shaper, splitter, photodiode; on 8 samples
    in 8 picoseconds around 1550 nm, and on 7 samples in 7 picoseconds *)
Local Open Scope R_scope.
Definition near8 : grid := mkGrid 8 (8 * / 10 ^ 12) (155 / 10 ^ 8).
Definition near7 : grid := mkGrid 7 (7 * / 10 ^ 12) (155 / 10 ^ 8).
Definition ones (n : nat) : nat -> nat -> list C * list R := fun _ _ => (repeat C1 n, repeat 1 n).
Lemma ones_fitted : forall n, fitted n (ones n).
Proof. intros n i k. split; apply repeat_length. Qed.
Lemma ones_lively : forall n, (0 < n)%nat -> lively (ones n).
Proof. intros [|n] H i k; [lia|]. exists C1. split; [left; reflexivity|]. intros E. injection E as E. lra. Qed.
Lemma near7_usable : usable (n_samples near7) (window_t near7).
Proof. unfold usable. cbn [n_samples window_t near7]. split; [lia|]. apply Rmult_lt_0_compat; [lra|]. apply Rinv_0_lt_compat. apply pow_lt. lra. Qed.
Lemma near7_bins : bin_spans (n_samples near7) (window_t near7) 0.
Proof. unfold bin_spans. cbn [n_samples window_t near7 Nat.sub]. change (INR 0) with 0%R. rewrite (INR_IZR_INZ 7), (INR_IZR_INZ 6). cbn [Z.of_nat Pos.of_succ_nat Pos.succ]. cbn [pow]. split; lra. Qed.
Lemma near8_optical : optical (n_samples near8) (window_t near8) (central_wl near8).
Proof. unfold optical. cbn [n_samples window_t central_wl near8]. rewrite INR_IZR_INZ. cbn [Z.of_nat Pos.of_succ_nat Pos.succ]. cbn [pow]. split; lra. Qed.

Lemma w0_free : single_feed g0 /\ ~ blocked (w_graph w0) (w_store w0) /\ forall N : nat, (contains (w_graph w0) WaveShaper -> shapeable N 0).
Proof.
  split; [apply single_feed_check; vm_compute; reflexivity|]. split; [|intros N _; right; left; lia].
  intros (e & o & ps & v & He & Ec & _). rewrite w0_graph in He. vm_compute in He. destruct He as [<-|[<-|[<-|[<-|[]]]]]; discriminate Ec.
Qed.
Lemma w0_end : no_output (w_graph w0) 3.
Proof. rewrite w0_graph. split; [eexists; vm_compute; right; right; right; left; reflexivity|]. intros e He. vm_compute in He. destruct He as [<-|[<-|[<-|[<-|[]]]]]; discriminate. Qed.
Lemma w0_fed : ~ no_input (w_graph w0) 3.
Proof. rewrite w0_graph. intros [_ X]. eapply X; [vm_compute; right; right; right; left; reflexivity|reflexivity]. Qed.
Lemma w0_lasers : forall a, starting (w_graph w0) a -> is_laser (ccls (e_model (e_dat a))).
Proof.
  intros a [Ha Na]. rewrite w0_graph in Ha, Na. vm_compute in Ha. destruct Ha as [<-|[<-|[<-|[<-|[]]]]].
  - left. reflexivity.
  - exfalso. destruct Na as [_ X]. eapply X; [vm_compute; left; reflexivity|reflexivity].
  - exfalso. destruct Na as [_ X]. eapply X; [vm_compute; left; reflexivity|reflexivity].
  - exfalso. destruct Na as [_ X]. eapply X; [vm_compute; right; left; reflexivity|reflexivity].
Qed.
Example C76_case :
  let even := simulate_noisy (w_store w0) near8 (ones 8) (w_graph w0) (repeat C0 8) [] in
  let odd := simulate_noisy (w_store w0) near7 (ones 7) (w_graph w0) (repeat C0 7) [] in
  snd even = Ok tt /\ (exists x, saved (fst even) (PNode 3) = Some (Some x) /\ length x = 8%nat) /\
  snd odd = Ok tt /\ saved (fst odd) (PNode 3) = Some None.
Proof.
  intros even odd. destruct w0_free as (Sf & Nb & Sh).
  destruct (C76_session default_library evo_op_list nodes0 edges0 1 2 g0 w0 w0 near8 (ones 8) (repeat C0 8) 0 [] default_lib_ok ops_nodup nodes0_nodup objects0_nodup g0_built g0_typed w0_built (ses_start _ _ _) grid8_usable eq_refl grid8_bins (ones_fitted 8)) as [K1 K2]. fold even in K1, K2.
  destruct (C76_session default_library evo_op_list nodes0 edges0 1 2 g0 w0 w0 near7 (ones 7) (repeat C0 7) 0 [] default_lib_ok ops_nodup nodes0_nodup objects0_nodup g0_built g0_typed w0_built (ses_start _ _ _) near7_usable eq_refl near7_bins (ones_fitted 7)) as [K3 _]. fold odd in K3.
  assert (E1 : snd even = Ok tt) by (apply K1; auto). assert (E2 : snd odd = Ok tt) by (apply K3; auto). split; [exact E1|].
  destruct (session_healthy default_library evo_op_list nodes0 edges0 1 2 g0 w0 w0 default_lib_ok ops_nodup nodes0_nodup objects0_nodup g0_built g0_typed w0_built (ses_start _ _ _)) as (((W & A & Ty & _) & _) & _). assert (Fu := session_g0 w0 (ses_start _ _ _)).
  assert (No := w0_end). assert (Ni := w0_fed).
  split; [|split; [exact E2|]].
  - assert (P : propagate (noisy_optics (w_store w0) near8 (ones 8)) (w_graph w0) (Some (repeat C0 8)) tt [] = (tt, fst even, Ok tt)) by (apply noisy_outcome; fold even; rewrite <- E1; apply surjective_pairing).
    destruct (proj1 (propagate_solution (noisy_optics (w_store w0) near8 (ones 8)) (w_graph w0) (Some (repeat C0 8)) W tt [] (noisy_steady _ _ _ _) A) tt (fst even) P) as (_ & val & out & _ & _ & Ro & _).
    destruct (K2 E1 ltac:(exists 4%nat; reflexivity) (ones_lively 8 ltac:(lia)) near8_optical (PNode 3) (out 3%nat) (Ro 3%nat No)) as (x & Ex & Lx). exists x. rewrite <- Ex. split; [exact (Ro 3%nat No)|exact Lx].
  - destruct (C76_odd (w_store w0) near7 (ones 7) (w_graph w0) (repeat C0 7) 0 [] W A Ty Fu near7_usable eq_refl near7_bins (ones_fitted 7) ltac:(exists 3%nat; reflexivity) E2) as [_ K]. exact (proj1 (K w0_lasers 3%nat No Ni)).
Qed.

(* impulse, splitter, phase modulator, splitter, meter: the noise adds nothing *)
Definition quiet_edges : list (eid * comp) :=
  [((0, 1, 0)%nat, mkComp 104 Impulse false); ((1, 2, 0)%nat, mkComp 105 PhaseModulator false); ((2, 3, 0)%nat, mkComp 107 MeasurementDevice false)].
Definition quiet_world : world := the (new_world nodes0 quiet_edges 1 2).
Example C76_silent_case : (forall e, In e (g_edges (w_graph quiet_world)) -> ~ has_noise (ccls (e_model (e_dat e)))) /\ contains (w_graph quiet_world) PhaseModulator /\
  forall draws, snd (simulate_noisy (w_store quiet_world) near8 draws (w_graph quiet_world) (repeat C0 8) []) = Ok tt /\
    forall pl, saved (fst (simulate_noisy (w_store quiet_world) near8 draws (w_graph quiet_world) (repeat C0 8) [])) pl = option_map Some (saved (fst (simulate (w_store quiet_world) near8 (w_graph quiet_world) (repeat C0 8) [])) pl).
Proof.
  assert (Q : forall e, In e (g_edges (w_graph quiet_world)) -> ~ has_noise (ccls (e_model (e_dat e)))) by (intros e He; vm_compute in He; destruct He as [<-|[<-|[<-|[]]]]; intros [H|[H|[H|[H|H]]]]; discriminate H).
  split; [exact Q|]. split; [eexists; split; [vm_compute; right; left; reflexivity|reflexivity]|]. intros draws.
  assert (I : init_graph nodes0 quiet_edges = Some (w_graph quiet_world)) by (vm_compute; reflexivity). assert (Nw : new_world nodes0 quiet_edges 1 2 = Ok quiet_world) by (vm_compute; reflexivity).
  assert (DO : NoDup (map (fun p => cid (snd p)) nodes0 ++ map (fun p => cid (snd p)) quiet_edges)) by (simpl; repeat constructor; simpl; intuition discriminate).
  assert (T : typed (w_graph quiet_world)) by (apply typedb_typed; [exact (proj1 (init_graph_some nodes0 quiet_edges _ nodes0_nodup I))|vm_compute; reflexivity]).
  destruct (session_healthy default_library evo_op_list nodes0 quiet_edges 1 2 _ quiet_world quiet_world default_lib_ok ops_nodup nodes0_nodup DO I T Nw (ses_start _ _ _)) as (((W & A & Ty & _) & _) & _).
  assert (Fu := session_furnished default_library evo_op_list nodes0 quiet_edges 1 2 _ quiet_world quiet_world default_lib_ok ops_nodup nodes0_nodup DO I T Nw (ses_start _ _ _)).
  destruct (C76_silent (w_store quiet_world) near8 draws (w_graph quiet_world) (repeat C0 8) [] [] W Fu Q) as [E1 E2]. split; [|exact E2]. rewrite E1.
  apply (C65_exact (w_store quiet_world) near8 (w_graph quiet_world) (repeat C0 8) 0 [] W A Ty Fu grid8_usable eq_refl grid8_bins). split; [apply single_feed_check; vm_compute; reflexivity|]. split; [|intros _; right; left; cbn; lia].
  intros (e & o & ps & v & He & Ec & _). vm_compute in He. destruct He as [<-|[<-|[<-|[]]]]; discriminate Ec.
Qed.
