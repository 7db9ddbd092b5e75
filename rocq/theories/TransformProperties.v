(** C78: recording what the components do during a simulation. *)
From Coq Require Import Reals Qreals List Arith Bool Lia Lra ZArith QArith.
From Verif Require Import Base GraphModel GraphSpec GraphProofs TopoProofs OperatorsModel OperatorsSpec OperatorsProofs EvolutionProofs TypingProofs InitProofs ParamsModel ParamsSpec EvolverModel EvolverSpec EvolveSpec BuildProofs PropagateModel PropagateSpec PropagateProofs FlowSpec FlowProofs Complex ArrayModel ComponentModel ComponentSpec ComponentProofs
  MoreComponentsModel OpticsModel OpticsSpec OpticsSessionProofs OpticsComponentProofs OpticsProofs NoisyProofs PhaseProofs EvolutionExamples EvolverExamples OpticsProperties TransformModel TransformSpec TransformProofs.
Import ListNotations.
Local Open Scope nat_scope.

Lemma unrecordable_or : forall g, recordable g \/ exists e, In e (g_edges g) /\ unrecordable (ccls (e_model (e_dat e))).
Proof.
  intros g. unfold recordable. induction (g_edges g) as [|e l [IH|(e' & H & K)]]; [left; intros e []| |right; exists e'; split; [right; exact H|exact K]].
  destruct (trouble_dec true (ccls (e_model (e_dat e)))) as [[_ T]|N]; [right; exists e; split; [left; reflexivity|exact T]|]. left. intros e' [<-|H]; [intros U; apply N; split; [reflexivity|exact U]|apply IH; exact H].
Qed.

(* which runs succeed, with which fields and which exceptions *)
Theorem C78_outcome : forall save st p g src T old T' sv r, wf g -> acyclic g -> distinct_objects g -> (0 < n_samples p) ->
  simulate_recording save st p g src T old = (T', sv, r) ->
  (r = Ok tt <-> snd (simulate st p g src old) = Ok tt /\ (save = true -> recordable g)) /\
  (r = Ok tt -> sv = fst (simulate st p g src old)) /\
  (forall er, r = Err er -> snd (simulate st p g src old) = Err er \/ save = true /\ er = NameError /\ ~ recordable g).
Proof.
  intros save st p g src T old T' sv r W A D P E. destruct (run_compare save st p g src W D T P old A) as (T'' & sv3 & r3 & E' & _ & _ & Cm). rewrite E in E'. injection E' as <- -> ->.
  assert (Nr : forall e, In e (g_edges g) /\ trouble save (ccls (e_model (e_dat e))) -> save = true /\ ~ recordable g) by (intros e (He & S & U); split; [exact S|]; intros R; exact (R e He U)).
  destruct Cm as [(E1 & E2 & K)|(E1 & e & He)].
  - split; [|split].
    + rewrite E1. split; [|tauto]. intros H. split; [exact H|]. intros S e He U. apply (K H e He). split; assumption.
    + intros _. symmetry. exact E2.
    + intros er H. left. rewrite E1. exact H.
  - destruct (Nr e He) as [S N]. rewrite E1. split; [|split].
    + split; [discriminate|]. intros [_ R]. exfalso. exact (N (R S)).
    + discriminate.
    + intros er H. injection H as <-. right. auto.
Qed.
Print Assumptions C78_outcome.

(* without recording: every recording is forgotten, except that of the amplifier *)
Theorem C78_cleared : forall st p g src T old T' sv, wf g -> acyclic g -> distinct_objects g -> (0 < n_samples p) ->
  simulate_recording false st p g src T old = (T', sv, Ok tt) ->
  (forall e, In e (g_edges g) -> T' (cid (e_model (e_dat e))) = if clearing (ccls (e_model (e_dat e))) then None else T (cid (e_model (e_dat e)))) /\
  (forall i, (forall e, In e (g_edges g) -> cid (e_model (e_dat e)) <> i) -> T' i = T i).
Proof.
  intros st p g src T old T' sv W A D P E. destruct (run_edges false st p g src T T' old sv W A D P E) as (val & _ & _ & H1 & H2). split; [|exact H1].
  intros e He. destruct (H2 e He) as (ps & s & f & _ & _ & _ & R & ->). apply recording_off in R. rewrite R. destruct (clearing _); reflexivity.
Qed.
Print Assumptions C78_cleared.

(* with recording: what the recorded curves say *)
Theorem C78_contents : forall st p g src n T old T' sv, wf g -> acyclic g -> typed g -> distinct_objects g -> furnished g st ->
  usable (n_samples p) (window_t p) -> length src = n_samples p -> bin_spans (n_samples p) (window_t p) n -> (contains g WaveShaper -> n_samples p <> 2) ->
  simulate_recording true st p g src T old = (T', sv, Ok tt) ->
  (exists val, forall e, In e (g_edges g) -> saved sv (PEdge (e_id e)) = Some (val e) /\
     exists ps s, get_params st (cid (e_model (e_dat e))) = Ok ps /\ enters st p g src val e s /\ (forall s', enters st p g src val e s' -> s' = s) /\ length s = n_samples p /\
       component (ccls (e_model (e_dat e))) ps p s = Ok (val e) /\ portrays (ccls (e_model (e_dat e))) ps p s (val e) (T' (cid (e_model (e_dat e))))) /\
  (forall e, In e (g_edges g) -> clearing (ccls (e_model (e_dat e))) = false -> ccls (e_model (e_dat e)) <> OpticalAmplifier -> T' (cid (e_model (e_dat e))) = T (cid (e_model (e_dat e)))) /\
  (forall i, (forall e, In e (g_edges g) -> cid (e_model (e_dat e)) <> i) -> T' i = T i).
Proof.
  intros st p g src n T old T' sv W A Ty D Fu U Ls Hn N2 E. assert (P : 0 < n_samples p) by (destruct U; lia). destruct (run_edges true st p g src T T' old sv W A D P E) as (val & Sol & Sv & H1 & H2). split; [|split; [|exact H1]].
  - exists val. intros e He. split; [exact (Sv e He)|]. destruct (H2 e He) as (ps & s & f & En & G & Cp & R & HT). exists ps, s. split; [exact G|]. split; [exact En|]. split; [intros s' En'; exact (enters_unique _ _ _ _ _ _ _ _ W En En')|].
    assert (L : length s = n_samples p).
    { destruct En as (c & ps' & states & i & M & Gc & K & Hi & Hs). pose proof (run_lengths st p g src n W A Ty Fu U Ls Hn (optics st p) (phased_optics st p g) val _ Sol) as Lv.
      pose proof (node_works st p g src W Ty Fu U Ls (optics st p) (phased_optics st p g) (e_src e) c (received g src val (e_src e)) M) as Nw. destruct (outputs_of g (e_src e)) as [k|].
      - destruct Nw as (states' & Ea & _ & Hl).
        + apply received_length; exact W.
        + intros x Hx. unfold received in Hx. destruct (arriving g (e_src e)) as [|e0 l] eqn:Ar; [destruct Hx as [<-|[]]; exact Ls|]. rewrite <- Ar in Hx. apply in_map_iff in Hx as (e' & <- & He'). apply Lv. apply (In_arriving g _ e' W) in He'. tauto.
        + cbn [node_act optics] in Ea. rewrite Gc in Ea. cbn [bind] in Ea. rewrite K in Ea. injection Ea as <-. apply Hl. exact (nth_error_In _ _ Hs).
      - destruct Nw as (er & Ea).
        + apply received_length; exact W.
        + intros x Hx. unfold received in Hx. destruct (arriving g (e_src e)) as [|e0 l] eqn:Ar; [destruct Hx as [<-|[]]; exact Ls|]. rewrite <- Ar in Hx. apply in_map_iff in Hx as (e' & <- & He'). apply Lv. apply (In_arriving g _ e' W) in He'. tauto.
        + cbn [node_act optics] in Ea. rewrite Gc in Ea. cbn [bind] in Ea. rewrite K in Ea. discriminate. }
    split; [exact L|]. split; [exact Cp|]. rewrite HT. apply (portrays_recording _ ps p n s (val e) f _ U Hn L); [|intros Ec; apply N2; exists e; split; [exact He|exact Ec]|exact Cp|exact R].
    destruct (proj1 Fu e He) as (o & ps' & H & Al). apply has_params in H. rewrite G in H. injection H as <-. exact Al.
  - intros e He Cl Na. destruct (H2 e He) as (ps & s & f & _ & _ & _ & R & ->). rewrite (recording_kept _ _ _ _ _ R Cl Na). reflexivity.
Qed.
Print Assumptions C78_contents.

(* graphs reached by a session of operators and parameter changes *)
Theorem C78_session : forall L ops nodes edges cur parent g w0 w p src n T old T' sv r, lib_ok L -> NoDup ops -> NoDup (map fst nodes) ->
  NoDup (map (fun p => cid (snd p)) nodes ++ map (fun p => cid (snd p)) edges) ->
  init_graph nodes edges = Some g -> typed g -> new_world nodes edges cur parent = Ok w0 -> session L ops w0 w ->
  usable (n_samples p) (window_t p) -> length src = n_samples p -> bin_spans (n_samples p) (window_t p) n ->
  simulate_recording true (w_store w) p (w_graph w) src T old = (T', sv, r) ->
  (r = Ok tt <-> single_feed g /\ ~ blocked (w_graph w) (w_store w) /\ (contains (w_graph w) WaveShaper -> shapeable (n_samples p) n) /\ recordable (w_graph w)) /\
  (r = Ok tt -> (contains (w_graph w) WaveShaper -> n_samples p <> 2) -> forall e, In e (g_edges (w_graph w)) -> exists ps s y,
     get_params (w_store w) (cid (e_model (e_dat e))) = Ok ps /\ saved sv (PEdge (e_id e)) = Some y /\ component (ccls (e_model (e_dat e))) ps p s = Ok y /\ portrays (ccls (e_model (e_dat e))) ps p s y (T' (cid (e_model (e_dat e))))).
Proof.
  intros L ops nodes edges cur parent g w0 w p src n T old T' sv r LO OND ND DO Hi Ty Hw Hs U Ls Hn E.
  destruct (session_healthy L ops nodes edges cur parent g w0 w LO OND ND DO Hi Ty Hw Hs) as (((W & A & Tw & _) & D & _) & _). pose proof (session_furnished L ops nodes edges cur parent g w0 w LO OND ND DO Hi Ty Hw Hs) as Fu.
  assert (P : 0 < n_samples p) by (destruct U; lia). destruct (C78_outcome true _ _ _ _ _ _ _ _ _ W A D P E) as (K1 & _ & _). split.
  - rewrite K1. rewrite (proj1 (C65_session L ops nodes edges cur parent g w0 w p src n old LO OND ND DO Hi Ty Hw Hs U Ls Hn)). split.
    + intros ((H1 & H2 & H3) & H4). split; [exact H1|]. split; [exact H2|]. split; [exact H3|exact (H4 eq_refl)].
    + intros (H1 & H2 & H3 & H4). auto.
  - intros -> N2 e He. destruct (C78_contents _ _ _ _ n _ _ _ _ W A Tw D Fu U Ls Hn N2 E) as ((val & V) & _). destruct (V e He) as (S & ps & s & G & _ & _ & _ & Cp & Po). exists ps, s, (val e). auto.
Qed.
Print Assumptions C78_session.

(** ** Cases *)
(* laser, splitter, one component, splitter, detector *)
Definition chain (c : cls) : list (eid * comp) :=
  [((0, 1, 0), mkComp 104 ContinuousWaveLaser false); ((1, 2, 0), mkComp 105 c false); ((2, 3, 0), mkComp 107 MeasurementDevice false)].
Definition chain_world (c : cls) : world := the (new_world nodes0 (chain c) 1 2).
Definition chain_graph (c : cls) : graph := match init_graph nodes0 (chain c) with Some g => g | None => empty_graph end.
Definition tried (c : cls) : Prop := c = IntegratedDelayLine \/ c = PhaseShifter \/ c = OpticalAmplifier \/ c = PhaseModulator.
Lemma chain_nodup : forall c, NoDup (map (fun p => cid (snd p)) nodes0 ++ map (fun p => cid (snd p)) (chain c)).
Proof. intros c. simpl. repeat constructor; simpl; intuition discriminate. Qed.
Lemma chain_built : forall c, tried c -> init_graph nodes0 (chain c) = Some (chain_graph c) /\ new_world nodes0 (chain c) 1 2 = Ok (chain_world c) /\ typedb (chain_graph c) = true /\ w_graph (chain_world c) = chain_graph c.
Proof. intros c [->|[->|[->| ->]]]; vm_compute; repeat split. Qed.
Lemma chain_typed : forall c, tried c -> typed (chain_graph c).
Proof. intros c H. destruct (chain_built c H) as (I & _ & T & _). apply typedb_typed; [exact (proj1 (init_graph_some nodes0 (chain c) (chain_graph c) nodes0_nodup I))|exact T]. Qed.
Lemma chain_edges : forall c e, tried c -> In e (g_edges (chain_graph c)) -> ccls (e_model (e_dat e)) = ContinuousWaveLaser \/ ccls (e_model (e_dat e)) = c \/ ccls (e_model (e_dat e)) = MeasurementDevice.
Proof. intros c e [->|[->|[->| ->]]] He; vm_compute in He; destruct He as [<-|[<-|[<-|[]]]]; cbn; auto. Qed.
Lemma chain_ready : forall c, tried c -> snd (simulate (w_store (chain_world c)) grid8 (w_graph (chain_world c)) dark8 []) = Ok tt.
Proof.
  intros c H. destruct (chain_built c H) as (I & N & _ & G).
  apply (proj1 (C65_session default_library evo_op_list nodes0 (chain c) 1 2 (chain_graph c) (chain_world c) (chain_world c) grid8 dark8 0 [] default_lib_ok ops_nodup nodes0_nodup (chain_nodup c) I (chain_typed c H) N (ses_start _ _ _) grid8_usable eq_refl grid8_bins)).
  split; [apply single_feed_check; destruct H as [->|[->|[->| ->]]]; vm_compute; reflexivity|]. rewrite G. split.
  - intros (e & o & ps & v & He & Ec & _). destruct (chain_edges c e H He) as [Q|[Q|Q]]; rewrite Q in Ec; try discriminate Ec. destruct H as [->|[->|[->| ->]]]; discriminate Ec.
  - intros (e & He & Ec). destruct (chain_edges c e H He) as [Q|[Q|Q]]; rewrite Q in Ec; try discriminate Ec. destruct H as [->|[->|[->| ->]]]; discriminate Ec.
Qed.
Lemma chain_facts : forall c, tried c -> wf (w_graph (chain_world c)) /\ acyclic (w_graph (chain_world c)) /\ typed (w_graph (chain_world c)) /\ distinct_objects (w_graph (chain_world c)) /\ furnished (w_graph (chain_world c)) (w_store (chain_world c)).
Proof.
  intros c H. destruct (chain_built c H) as (I & N & _ & _).
  destruct (session_healthy default_library evo_op_list nodes0 (chain c) 1 2 (chain_graph c) (chain_world c) (chain_world c) default_lib_ok ops_nodup nodes0_nodup (chain_nodup c) I (chain_typed c H) N (ses_start _ _ _)) as (((W & A & Tw & _) & D & _) & _).
  repeat (split; [assumption|]). exact (session_furnished default_library evo_op_list nodes0 (chain c) 1 2 (chain_graph c) (chain_world c) (chain_world c) default_lib_ok ops_nodup nodes0_nodup (chain_nodup c) I (chain_typed c H) N (ses_start _ _ _)).
Qed.
Definition recorded (save : bool) (c : cls) (T : transforms) := simulate_recording save (w_store (chain_world c)) grid8 (w_graph (chain_world c)) dark8 T [].
Lemma chain_edge : forall c, tried c -> exists e, In e (g_edges (w_graph (chain_world c))) /\ cid (e_model (e_dat e)) = 105 /\ ccls (e_model (e_dat e)) = c.
Proof. intros c H. destruct (chain_built c H) as (_ & _ & _ & ->). destruct H as [->|[->|[->| ->]]]; eexists; (split; [vm_compute; right; left; reflexivity|split; reflexivity]). Qed.
Lemma chain_runs : forall save c T, tried c -> (save = true -> c <> PhaseShifter) -> exists T' sv, recorded save c T = (T', sv, Ok tt).
Proof.
  intros save c T H N. destruct (chain_facts c H) as (W & A & Ty & D & Fu). unfold recorded. destruct (simulate_recording save (w_store (chain_world c)) grid8 (w_graph (chain_world c)) dark8 T []) as [[T' sv] r] eqn:E. exists T', sv. f_equal.
  apply (proj1 (C78_outcome save _ grid8 _ _ _ _ _ _ _ W A D ltac:(cbn; lia) E)). split; [apply chain_ready; exact H|]. intros S e He U. destruct (chain_built c H) as (_ & _ & _ & G). rewrite G in He. destruct (chain_edges c e H He) as [Q|[Q|Q]]; rewrite Q in U; destruct U as [U|U]; try discriminate U.
  - destruct H as [->|[->|[->| ->]]]; discriminate U.
  - exact (N S U).
Qed.

(* a phase shifter: the simulation works, recording it raises NameError *)
Example C78_outcome_case : forall T, snd (simulate (w_store (chain_world PhaseShifter)) grid8 (w_graph (chain_world PhaseShifter)) dark8 []) = Ok tt /\ snd (recorded true PhaseShifter T) = Err NameError /\ snd (recorded false PhaseShifter T) = Ok tt.
Proof.
  intros T. assert (H : tried PhaseShifter) by (unfold tried; auto). split; [exact (chain_ready _ H)|]. destruct (chain_facts _ H) as (W & A & Ty & D & Fu). split.
  - unfold recorded. destruct (simulate_recording true _ grid8 _ dark8 T []) as [[T' sv] r] eqn:E. cbn [snd]. destruct (C78_outcome true _ grid8 _ _ _ _ _ _ _ W A D ltac:(cbn; lia) E) as (K1 & _ & K3). destruct r as [[]|er].
    + exfalso. destruct (proj1 K1 eq_refl) as [_ R]. destruct (chain_edge _ H) as (e & He & _ & Ec). apply (R eq_refl e He). right. exact Ec.
    + destruct (K3 er eq_refl) as [X|(_ & -> & _)]; [|reflexivity]. rewrite (chain_ready _ H) in X. discriminate.
  - destruct (chain_runs false PhaseShifter T H ltac:(discriminate)) as (T' & sv & ->). reflexivity.
Qed.
(* recording and then not recording: the phase modulator forgets, the amplifier does not *)
Example C78_cleared_case : (forall T T1 sv1 T2 sv2, recorded true PhaseModulator T = (T1, sv1, Ok tt) -> recorded false PhaseModulator T1 = (T2, sv2, Ok tt) -> T1 105 <> None /\ T2 105 = None) /\
  (forall T T1 sv1 T2 sv2, recorded true OpticalAmplifier T = (T1, sv1, Ok tt) -> recorded false OpticalAmplifier T1 = (T2, sv2, Ok tt) -> T1 105 <> None /\ T2 105 = T1 105).
Proof.
  split; intros T T1 sv1 T2 sv2 E1 E2; unfold recorded in E1, E2.
  - assert (H : tried PhaseModulator) by (unfold tried; auto). destruct (chain_facts _ H) as (W & A & Ty & D & Fu). destruct (chain_edge _ H) as (e & He & Ei & Ec). split.
    + destruct (C78_contents _ grid8 _ dark8 0 _ _ _ _ W A Ty D Fu grid8_usable eq_refl grid8_bins (fun _ => ltac:(discriminate)) E1) as ((val & V) & _). destruct (V e He) as (_ & ps & s & _ & _ & _ & _ & _ & Po). rewrite Ec, Ei in Po. destruct Po as (r & -> & _). discriminate.
    + pose proof (proj1 (C78_cleared _ grid8 _ _ _ _ _ _ W A D ltac:(cbn; lia) E2) e He) as K. rewrite Ec, Ei in K. exact K.
  - assert (H : tried OpticalAmplifier) by (unfold tried; auto). destruct (chain_facts _ H) as (W & A & Ty & D & Fu). destruct (chain_edge _ H) as (e & He & Ei & Ec). split.
    + destruct (C78_contents _ grid8 _ dark8 0 _ _ _ _ W A Ty D Fu grid8_usable eq_refl grid8_bins (fun _ => ltac:(discriminate)) E1) as ((val & V) & _). destruct (V e He) as (_ & ps & s & _ & _ & _ & _ & _ & Po). rewrite Ec, Ei in Po. destruct Po as (r & -> & _). discriminate.
    + pose proof (proj1 (C78_cleared _ grid8 _ _ _ _ _ _ W A D ltac:(cbn; lia) E2) e He) as K. rewrite Ec, Ei in K. exact K.
Qed.
Local Open Scope R_scope.
Lemma near_minus_one : nearest 8 (8 * / 10 ^ 12) (- (1 * Rpower 10 (-12))) 3.
Proof.
  assert (Q : Rpower 10 (-12) = / 10 ^ 12) by (replace (-12) with (- INR 12) by (rewrite INR_IZR_INZ; cbn [Z.of_nat Pos.of_succ_nat Pos.succ]; lra); rewrite Rpower_Ropp; f_equal; apply Rpower_pow; lra). rewrite Q, Rmult_1_l. set (u := / 10 ^ 12). assert (U : 0 < u) by (apply Rinv_0_lt_compat, pow_lt; lra). clearbody u.
  assert (V : forall j, sample_time 8 (8 * u) j - - u = u * (8 / 7 * INR j - 3)) by (intros j; unfold sample_time; cbn [Nat.sub]; rewrite (INR_IZR_INZ 7); cbn [Z.of_nat Pos.of_succ_nat Pos.succ]; field).
  assert (B : Rabs (sample_time 8 (8 * u) 3 - - u) = u * (3 / 7)) by (rewrite V, (INR_IZR_INZ 3); cbn [Z.of_nat Pos.of_succ_nat Pos.succ]; rewrite Rabs_right; [field|nra]).
  assert (Lo : forall j, (j <= 2)%nat -> u * (3 / 7) < Rabs (sample_time 8 (8 * u) j - - u)).
  { intros j Hj. apply le_INR in Hj. rewrite (INR_IZR_INZ 2) in Hj. cbn [Z.of_nat Pos.of_succ_nat Pos.succ] in Hj. rewrite V, Rabs_left1 by nra. nra. }
  split; [lia|]. split; intros j Hj; rewrite B.
  - destruct (le_lt_dec j 2) as [Hl|Hl]; [left; apply Lo; exact Hl|]. apply le_INR in Hl. rewrite (INR_IZR_INZ 3) in Hl. cbn [Z.of_nat Pos.of_succ_nat Pos.succ] in Hl. rewrite V, Rabs_right by nra. nra.
  - apply Lo. lia.
Qed.
(* a delay line with its default of one picosecond: the fourth sample is nearest to minus one picosecond *)
Example C78_contents_case : forall T, exists T' sv, recorded true IntegratedDelayLine T = (T', sv, Ok tt) /\ T' 105%nat = Some [(InTime, [0; 0; 0; 1; 0; 0; 0; 0])] /\ T' 104%nat = T 104%nat.
Proof.
  intros T. assert (H : tried IntegratedDelayLine) by (unfold tried; auto). destruct (chain_runs true _ T H ltac:(discriminate)) as (T' & sv & E). exists T', sv. split; [exact E|]. unfold recorded in E.
  destruct (chain_facts _ H) as (W & A & Ty & D & Fu). destruct (C78_contents _ grid8 _ dark8 0 _ _ _ _ W A Ty D Fu grid8_usable eq_refl grid8_bins (fun _ => ltac:(discriminate)) E) as ((val & V) & Kept & _). split.
  - destruct (chain_edge _ H) as (e & He & Ei & Ec). destruct (V e He) as (_ & ps & s & G & _ & _ & _ & _ & Po). rewrite Ec, Ei in *. destruct Po as (r & d & -> & Ed & Lr & i & Ni & V1 & V0).
    assert (G' : get_params (w_store (chain_world IntegratedDelayLine)) 105 = Ok [dec 1 0]) by (vm_compute; reflexivity). rewrite G' in G. injection G as <-. assert (d = 1) by (cbn in Ed; injection Ed as <-; unfold Q2R; cbn; lra). subst d.
    pose proof (nearest_unique _ _ _ _ _ Ni near_minus_one) as ->. cbn [n_samples grid8] in Lr. do 9 (destruct r as [|? r]; try discriminate Lr). pose proof (V0 0%nat ltac:(lia)). pose proof (V0 1%nat ltac:(lia)). pose proof (V0 2%nat ltac:(lia)). pose proof (V0 4%nat ltac:(lia)). pose proof (V0 5%nat ltac:(lia)). pose proof (V0 6%nat ltac:(lia)). pose proof (V0 7%nat ltac:(lia)). cbn [nth] in *. subst. reflexivity.
  - destruct (chain_built _ H) as (_ & _ & _ & G). eassert (He : In _ (g_edges (w_graph (chain_world IntegratedDelayLine)))) by (rewrite G; vm_compute; left; reflexivity). apply (Kept _ He); [reflexivity|discriminate].
Qed.
