(** Every component of a graph that a session reaches holds values it may have (C65). *)
From Coq Require Import List Arith Bool Lia ZArith QArith Permutation.
From Verif Require Import Base GraphModel GraphSpec GraphProofs TopoProofs OperatorsModel OperatorsSpec OperatorsProofs EvolutionProofs
  TypingProofs EffectsProofs InitSpec InitProofs ParamsModel ParamsSpec EvolverModel EvolverSpec EvolveSpec ParamsProofs SamplingProofs HessianProofs EvolveProofs LineageProofs BuildProofs
  SaveModel SaveSpec RebuildProofs SaveProofs LoadProofs SessionSaveProofs OpticsSpec.
Import ListNotations.
Local Open Scope nat_scope.

(* an object as its class makes it, except for its list and the free entries of it *)
Definition original (s : store) (c : comp) : Prop := exists o ps, has s (cid c) o ps /\ o_lock o = sp_lock (spec_of (ccls c)) /\
  (family_of (ccls c) <> MultiPath ->
     o_lo o = sp_lo (spec_of (ccls c)) /\ o_hi o = sp_hi (spec_of (ccls c)) /\ o_locks o = sp_locks (spec_of (ccls c)) /\ length ps = length (sp_def (spec_of (ccls c))) /\
     forall k, ~ free o k -> nth_error ps k = nth_error (sp_def (spec_of (ccls c))) k).
(* a splitter as update_attributes leaves it, except for the values *)
Definition coupled (g : graph) (s : store) (n : node) (c : comp) : Prop := exists o ps, has s (cid c) o ps /\ o_lock o = false /\
  o_lo o = rep (pred (departures g n)) (dec 0 0) /\ o_hi o = rep (pred (departures g n)) (dec 1 0) /\ o_locks o = rep (pred (departures g n)) false /\
  length ps = pred (departures g n).
Definition kept (g : graph) (s : store) : Prop :=
  (forall c, In c (components g) -> original s c) /\
  (forall n c, model_at g n c -> family_of (ccls c) = MultiPath -> coupled g s n c).

Lemma splitter_lock : forall c, family_of c = MultiPath -> sp_lock (spec_of c) = false.
Proof. intros c H. destruct c; try discriminate H; reflexivity. Qed.

Lemma new_original : forall s c l, has s (cid c) (obj_of_spec l (spec_of (ccls c))) (sp_def (spec_of (ccls c))) -> original s c.
Proof. intros s c l H. exists (obj_of_spec l (spec_of (ccls c))), (sp_def (spec_of (ccls c))). split; [exact H|]. split; [reflexivity|]. intros _. repeat (split; [reflexivity|]). auto. Qed.

Lemma keeps_original : forall s s' c, keeps s s' (cid c) -> original s c -> original s' c.
Proof. intros s s' c K (o & ps & H & R). exists o, ps. split; [apply K; exact H|exact R]. Qed.

Lemma construct_original : forall s c, original (construct s c) c.
Proof. intros s c. destruct (construct_has s c) as (l & _ & H). exact (new_original _ _ _ H). Qed.

Lemma update_kept : forall g s s', wf g -> acyclic g -> typed g -> distinct_objects g -> (forall c, In c (components g) -> original s c) ->
  update_graph g s = Ok s' -> kept g s'.
Proof.
  intros g s s' W A T D O E.
  assert (Dn : NoDup (map (fun p => cid (n_model (snd p))) (g_nodes g))).
  { unfold distinct_objects, components in D. rewrite map_app, map_map in D. apply HessianProofs.NoDup_app_l in D. exact D. }
  assert (Inn : forall p, In p (g_nodes g) -> In (n_model (snd p)) (components g)).
  { intros p Hp. unfold components. apply in_or_app; left. apply (in_map (fun p => n_model (snd p))); exact Hp. }
  destruct (update_graph_full g s A W) as (s2 & E2 & _ & K & M & G & _); [|exact Dn|].
  { intros [n d] Hp. split; [|apply (typed_node g n (n_model d) T); exists d; auto]. destruct (O (n_model d) (Inn _ Hp)) as (o & ps & [H _] & _). eapply assoc_In_fst; exact H. }
  assert (s2 = s') by congruence; subst s2.
  assert (Cp : forall n c, model_at g n c -> family_of (ccls c) = MultiPath -> exists o, has s' (cid c) o (split_default (pred (departures g n))) /\ o_lock o = false /\
    o_lo o = rep (pred (departures g n)) (dec 0 0) /\ o_hi o = rep (pred (departures g n)) (dec 1 0) /\ o_locks o = rep (pred (departures g n)) false).
  { intros n c (d & Hd & <-) Fc. destruct (O (n_model d) (Inn _ Hd)) as (o & ps & [H1 _] & L & _). destruct (M (n, d) o Hd Fc H1) as (l & H). cbv zeta in H. cbn [fst snd] in H.
    eexists. split; [exact H|]. cbn [o_lock o_lo o_hi o_locks]. rewrite L, (splitter_lock _ Fc). auto. }
  split.
  - intros c Hc. destruct (family_eq_dec (family_of (ccls c)) MultiPath) as [Fc|Fc].
    + (* a splitter on a node, or not reset at all *)
      destruct (in_dec (fun a b => Nat.eq_dec a b) (cid c) (map (fun p => cid (n_model (snd p))) (g_nodes g))) as [I|I].
      * apply in_map_iff in I. destruct I as ([n d] & Ei & Hd). cbn [fst snd] in Ei. assert (X : n_model d = c) by (apply (NoDup_map_inj_In cid (components g)); [exact D|exact (Inn _ Hd)|exact Hc|exact Ei]). subst c.
        destruct (Cp n (n_model d)) as (o & H & L & _); [exists d; auto|exact Fc|]. exists o, (split_default (pred (departures g n))). split; [exact H|]. split; [rewrite L, (splitter_lock _ Fc); reflexivity|]. intros C; contradiction.
      * apply (keeps_original s); [|apply O; exact Hc]. eapply same_has; [|exact G]. apply K. intros p Hp _ C. apply I. rewrite <- C. apply (in_map (fun p => cid (n_model (snd p)))); exact Hp.
    + apply (keeps_original s); [|apply O; exact Hc]. eapply same_has; [|exact G]. apply K. intros p Hp Fp C. assert (X : n_model (snd p) = c) by (apply (NoDup_map_inj_In cid (components g)); [exact D|exact (Inn _ Hp)|exact Hc|exact C]). congruence.
  - intros n c Mc Fc. destruct (Cp n c Mc Fc) as (o & H & R). destruct R as (R1 & R2 & R3 & R4). exists o, (split_default (pred (departures g n))). split; [exact H|]. repeat (split; [assumption|]). apply split_default_length.
Qed.

Lemma constructed_original : forall L o g l d g' s c, wf g -> acyclic g -> apply_op L o g l d = Some g' -> draws_ok L o g l d ->
  (forall c, In c (components g) -> original s c) -> In c (components g') -> original (construct_drawn L o l g d s) c.
Proof.
  intros L o g l d g' s c W A Ap Dr O Hc. destruct (apply_components L o g l d g' c W A Ap Hc) as [Old|New].
  - assert (Us : used g (cid c)) by (apply used_components; exists c; auto). specialize (O _ Old). apply used_ids_In in Us.
    destruct o; simpl in *.
    + destruct Dr as (_ & _ & _ & _ & F1 & F2 & _). eapply keeps_original; [|exact O]. eapply keeps_trans; apply construct_keeps; congruence.
    + destruct Dr as (_ & _ & F1). eapply keeps_original; [|exact O]. apply construct_keeps; congruence.
    + exact O.
    + eapply keeps_original; [|exact O]. apply construct_keeps. destruct l; try contradiction; destruct Dr as (_ & _ & F1); congruence.
  - destruct o; simpl in *; subst.
    + destruct Dr as (_ & _ & _ & _ & _ & _ & F3 & _). destruct New as [->| ->]; [|apply construct_original].
      eapply keeps_original; [apply construct_keeps; exact F3|apply construct_original].
    + apply construct_original.
    + contradiction.
    + apply construct_original.
Qed.

Lemma evolve_kept : forall L ops w c w' o, lib_ok L -> NoDup ops -> sound w -> distinct_objects (w_graph w) -> fair L ops w c -> kept (w_graph w) (w_store w) ->
  do_call L ops w c = (w', Ok o) -> kept (w_graph w') (w_store w').
Proof.
  intros L ops w c w' r LO OND (W & A & T & Rd & Wi) DO (U0 & U1 & Sh & Dr) [Kp _] H. unfold do_call in H. rewrite evolve_pick in H. cbv zeta in H.
  destruct (pick_cases L ops (w_graph w) (w_store w) (w_hess w) (ch_shuffle (c_ch c)) W A OND Sh (prepare (c_ev c) (c_gen c)) (ch_u (c_ch c)) U0 U1)
    as [(l & o & E & Ho & Of)|(e & E & Er)]; [|rewrite E in H; discriminate].
  specialize (Dr l o E). rewrite E in H. unfold offers, places in Of.
  destruct (possible_locations L o (w_graph w)) as [locs|] eqn:Pl; [|destruct Of].
  destruct (apply_op_total L o (w_graph w) l (ch_draws (c_ch c)) locs W Pl Of) as (g' & Ap). rewrite Ap in H.
  assert (St : evo_step L (w_graph w) o g') by (econstructor; eassumption).
  destruct (step_effect L _ o _ W A St) as [W' Ef]. pose proof (effect_acyclic L _ o _ W A Ef) as A'.
  pose proof (effect_typed L _ o _ LO W A W' Ef T) as T'.
  pose proof (effect_distinct L _ o _ W A W' Ef DO) as DO'.
  destruct (update_graph g' _) as [s2|] eqn:Eu; [|discriminate].
  destruct (bind _ _) as [x|e]; [|discriminate]. injection H as <- <-. cbn [w_graph w_store].
  eapply update_kept; try eassumption. intros c0 Hc0. eapply constructed_original; try eassumption.
Qed.

Lemma new_kept : forall nodes edges cur parent g w, NoDup (map fst nodes) -> init_graph nodes edges = Some g -> typed g ->
  NoDup (map (fun p => cid (snd p)) nodes ++ map (fun p => cid (snd p)) edges) -> new_world nodes edges cur parent = Ok w -> kept (w_graph w) (w_store w).
Proof.
  intros nodes edges cur parent g w ND Hi T DO Hw.
  destruct (new_healthy_gen nodes edges cur parent ND g Hi T DO) as (w1 & H1 & H2 & _ & _ & _ & _ & (So & D & _) & _). assert (w1 = w) by congruence; subst w1.
  unfold new_world in Hw. rewrite Hi in Hw. cbn [of_option bind] in Hw. apply bind_ok in Hw; destruct Hw as (s & Hu & Hw). injection Hw as <-. cbn [w_graph w_store] in *. clear H1 H2.
  destruct So as (W & A & _). eapply update_kept; try eassumption. intros c Hc. destruct (construct_all_has (components g) (mkStore [] []) D c Hc) as (l & H). exact (new_original _ _ _ H).
Qed.

Lemma sits_same : forall g c c' pl, wf g -> sits g c pl -> sits g c' pl -> c = c'.
Proof.
  intros g c c' pl W H H'. destruct pl as [n|i].
  - destruct H as (d & Hd & <-), H' as (d' & Hd' & <-). assert (E : (n, d) = (n, d')) by (apply (NoDup_map_inj_In fst (g_nodes g)); [apply (wf_nodes g W)|assumption|assumption|reflexivity]). congruence.
  - destruct H as (e & He & Ei & <-), H' as (e' & He' & Ei' & <-).
    assert (E : e = e') by (apply (NoDup_map_inj_In (fun e => (e_src e, e_dst e, e_key e)) (g_edges g)); [apply (wf_keys g W)|assumption|assumption|congruence]). congruence.
Qed.

(* values were written to free entries only *)
Lemma write_kept : forall g s s', wf g -> unshared g s -> distinct_objects g -> same_except_free g s s' -> kept g s -> kept g s'.
Proof.
  intros g s s' W U D (F1 & F2 & F3) [K1 K2]. split.
  - intros c Hc. destruct (K1 c Hc) as (o & ps & [H1 H2] & Lk & R). destruct (F3 _ _ H2) as (ps' & A' & Ln & Sm). exists o, ps'. split; [split; [rewrite F1; exact H1|exact A']|]. split; [exact Lk|].
    intros Fc. destruct (R Fc) as (R1 & R2 & R3 & R4 & R5). repeat (split; [first [assumption|congruence]|]). intros k Nf. rewrite <- (R5 k Nf). apply Sm. intros i o' qs (c' & pl' & Si & Ei) Hh Fr El.
    subst i. assert (Us : used g (cid c)) by (apply used_components; exists c; auto). destruct Us as (c2 & pl2 & Si2 & Ei2).
    assert (X2 : c2 = c) by (apply (NoDup_map_inj_In cid (components g)); [exact D|exact (sits_comp _ _ _ Si2)|exact Hc|exact Ei2]). subst c2.
    assert (P : pl' = pl2) by (eapply U; [exact Si|exact Si2|exact Hh|exact (conj H1 H2)|congruence]). subst pl'.
    assert (X3 : c' = c) by (eapply sits_same; eassumption). subst c'. destruct Hh as [Hh _]. assert (o' = o) by congruence. subst o'. contradiction.
  - intros n c Mc Fc. destruct (K2 n c Mc Fc) as (o & ps & [H1 H2] & R1 & R2 & R3 & R4 & R5). destruct (F3 _ _ H2) as (ps' & A' & Ln & _).
    exists o, ps'. split; [split; [rewrite F1; exact H1|exact A']|]. repeat (split; [assumption|]). congruence.
Qed.

Lemma session_kept : forall L ops w0 w, lib_ok L -> NoDup ops -> session L ops w0 w -> healthy w0 -> store_ok (w_store w0) -> kept (w_graph w0) (w_store w0) ->
  kept (w_graph w) (w_store w).
Proof.
  intros L ops w0 w LO OND H H0 S0 K0. induction H as [|w c w' r H IH F E|w d rs s' H IH F E|w x vs s' H IH Ex B E|w h H IH|w s' H IH E].
  - exact K0.
  - destruct (session_gen L ops w0 w LO OND H H0 S0) as ((So & D & _) & _ & _).
    destruct (evolve_within L ops w c w' r LO OND So F E) as [So' [(o & -> & Ho & Stp)|[-> _]]]; [|exact IH].
    exact (evolve_kept L ops w c w' o LO OND So D F IH E).
  - destruct (session_gen L ops w0 w LO OND H H0 S0) as (((W & A & T & Rd & Wi) & D & U & Sa) & _ & _). cbn [with_store w_graph w_store].
    unfold sample_parameters in E. apply bind_ok in E; destruct E as (x & Ex & E). apply bind_ok in E; destruct E as (vs & _ & E).
    eapply write_kept; [exact W|exact U|exact D| |exact IH]. eapply distribute_frame_graph; eassumption.
  - destruct (session_gen L ops w0 w LO OND H H0 S0) as (((W & A & T & Rd & Wi) & D & U & Sa) & _ & _). cbn [with_store w_graph w_store].
    eapply write_kept; [exact W|exact U|exact D| |exact IH]. eapply distribute_frame_graph; eassumption.
  - exact IH.
  - destruct (session_gen L ops w0 w LO OND H H0 S0) as (((W & A & T & Rd & Wi) & D & _) & _ & _). cbn [with_store w_graph w_store].
    eapply update_kept; try eassumption. apply IH.
Qed.

Lemma rep_nth : forall A n (x y : A) k, nth_error (rep n x) k = Some y -> y = x.
Proof. intros A n x y k H. apply nth_error_In in H. induction n as [|n IH]; cbn [rep] in H; [destruct H|]. destruct H as [H|H]; [congruence|auto]. Qed.
Lemma rep_nth_some : forall A n (x : A) k, k < n -> nth_error (rep n x) k = Some x.
Proof. intros A n x. induction n as [|n IH]; intros k Hk; [lia|]. cbn [rep]. destruct k; [reflexivity|]. cbn [nth_error]. apply IH. lia. Qed.

Lemma edge_family : forall g e, wf g -> typed g -> In e (g_edges g) -> family_of (ccls (e_model (e_dat e))) <> MultiPath.
Proof.
  intros g e W T He. destruct (wf_ends g W e He) as [Ns Nd]. destruct (no_input_dec g (e_src e) Ns) as [I|I]; [rewrite (ty_edge_source g T e He I); discriminate|].
  destruct (no_output_dec g (e_dst e) Nd) as [O|O]; [rewrite (ty_edge_sink g T e He I O); discriminate|]. rewrite (ty_edge_inner g T e He I O); discriminate.
Qed.

Lemma kept_furnished : forall g s, typed g -> wf g -> all_within g s -> kept g s -> furnished g s.
Proof.
  intros g s T W Wi [K1 K2]. split.
  - intros e He. assert (Ic : In (e_model (e_dat e)) (components g)) by (apply (sits_comp g _ (PEdge (e_src e, e_dst e, e_key e))); exists e; auto).
    destruct (K1 _ Ic) as (o & ps & Hh & Lk & R). destruct (R (edge_family g e W T He)) as (R1 & R2 & R3 & R4 & R5). exists o, ps. split; [exact Hh|]. split; [exact R4|]. intros k Hk.
    assert (Fr : free o k <-> adjustable (ccls (e_model (e_dat e))) k) by (unfold free, adjustable; rewrite Lk, R3; tauto).
    destruct (Wi (cid (e_model (e_dat e)))) as (o2 & ps2 & Hh2 & B); [apply used_components; eexists; split; [exact Ic|reflexivity]|].
    destruct (has_fun _ _ _ _ _ _ Hh Hh2) as [-> ->].
    assert (Dec : free o2 k \/ ~ free o2 k). { unfold free. destruct (o_lock o2), (nth_error (o_locks o2) k) as [[]|]; try (left; split; reflexivity); right; intros [X Y]; congruence. }
    destruct Dec as [Fk|Fk]; [left|right].
    + split; [apply Fr; exact Fk|]. destruct (B k Fk) as (v & lo & hi & B1 & B2 & B3 & B4). exists v, lo, hi. rewrite <- R1, <- R2. auto.
    + split; [intros C; apply Fk, Fr, C|]. apply R5. exact Fk.
  - intros n c Mc. assert (Ic : In c (components g)) by (apply (sits_comp g c (PNode n)); exact Mc).
    destruct (family_eq_dec (family_of (ccls c)) MultiPath) as [Fc|Fc].
    + destruct (K2 n c Mc Fc) as (o & ps & Hh & R1 & R2 & R3 & R4 & R5). exists o, ps. split; [exact Hh|]. rewrite Fc.
      assert (Dp : 0 < departures g n) by (apply (typed_node g n c T Mc); exact Fc).
      split; [lia|]. intros v Hv. apply In_nth_error in Hv. destruct Hv as (k & Hk).
      assert (Lk : k < pred (departures g n)) by (rewrite <- R5; apply nth_error_Some; congruence).
      destruct (Wi (cid c)) as (o2 & ps2 & Hh2 & B); [apply used_components; exists c; auto|]. destruct (has_fun _ _ _ _ _ _ Hh Hh2) as [-> ->].
      destruct (B k) as (q & lo & hi & B1 & B2 & B3 & B4 & B5); [split; [exact R1|rewrite R4; apply rep_nth_some; exact Lk]|].
      rewrite R2 in B2. rewrite R3 in B3. apply rep_nth in B2, B3. injection B2 as ->. injection B3 as ->. exists q. split; [congruence|]. split; [exact B4|exact B5].
    + destruct (K1 c Ic) as (o & ps & Hh & Lk & R). destruct (R Fc) as (_ & _ & _ & R4 & _). exists o, ps. split; [exact Hh|].
      assert (X : sp_def (spec_of (ccls c)) = []).
      { destruct (proj1 (typed_node g n c T Mc)) as [Q|Q]; [contradiction|]. apply term_default. exact Q. }
      rewrite X in R4. destruct ps; [|discriminate R4]. destruct (family_of (ccls c)); [reflexivity|reflexivity|contradiction|reflexivity|reflexivity|reflexivity].
Qed.

Theorem session_furnished : forall L ops nodes edges cur parent g w0 w, lib_ok L -> NoDup ops -> NoDup (map fst nodes) ->
  NoDup (map (fun p => cid (snd p)) nodes ++ map (fun p => cid (snd p)) edges) ->
  init_graph nodes edges = Some g -> typed g -> new_world nodes edges cur parent = Ok w0 -> session L ops w0 w ->
  furnished (w_graph w) (w_store w).
Proof.
  intros L ops nodes edges cur parent g w0 w LO OND ND DO Hi T Hw Hs.
  destruct (new_healthy_gen nodes edges cur parent ND g Hi T DO) as (w1 & H1 & H2 & _ & _ & _ & _ & H7 & H8). assert (w1 = w0) by congruence; subst w1.
  pose proof (new_kept nodes edges cur parent g w0 ND Hi T DO Hw) as K0.
  destruct (session_gen L ops w0 w LO OND Hs H7 H8) as (((W & A & T' & Rd & Wi) & D & _) & _ & _).
  apply kept_furnished; [exact T'|exact W|exact Wi|]. exact (session_kept L ops w0 w LO OND Hs H7 H8 K0).
Qed.
