(** Every graph a session reaches can be copied, saved and loaded (C13, C14). *)
From Coq Require Import List Arith Bool Lia ZArith QArith Permutation.
From Verif Require Import Base GraphModel GraphSpec GraphProofs TopoProofs OperatorsModel OperatorsSpec OperatorsProofs EvolutionProofs
  TypingProofs EffectsProofs InitSpec InitProofs ParamsModel ParamsSpec EvolverModel EvolverSpec EvolveSpec ParamsProofs SamplingProofs HessianProofs EvolveProofs LineageProofs BuildProofs
  SaveModel SaveSpec RebuildProofs SaveProofs LoadProofs.
Import ListNotations.
Local Open Scope nat_scope.

Lemma step_class : forall L g o g' c, wf g -> acyclic g -> evo_step L g o g' -> In c (components g') ->
  In c (components g) \/ In (ccls c) (source_models L) \/ In (ccls c) (sink_models L) \/ In (ccls c) (edge_models L) \/ In (ccls c) (node_models L).
Proof.
  intros L g o g' c W A S Hc. inversion S as [? ? l d locs ? Pl Il Dr Ap]; subst.
  destruct (apply_components L o g l d g' c W A Ap Hc) as [H|H]; [left; exact H|].
  destruct o; cbn [drawn] in H.
  - destruct Dr as (D1 & _ & D2 & _). destruct H as [->| ->]; auto.
  - subst c. destruct l; destruct Dr as (D1 & _); auto.
  - contradiction.
  - subst c. destruct l as [n|i|n i|u v]; try contradiction; cbn [apply_op] in Ap.
    + unfold apply_swap_node in Ap. destruct (node_data g n) as [nd|] eqn:En; [|discriminate]. destruct Dr as (D1 & _).
      destruct (swap_set (node_models L) (ccls (n_model nd))) as [|x r] eqn:Es; [injection Ap as <-; left; exact Hc|]. right.
      assert (Nc : node_cls g n = Some (ccls (n_model nd))) by (unfold node_cls; rewrite En; reflexivity).
      specialize (D1 _ Nc ltac:(rewrite Es; discriminate)). unfold swap_set in D1. apply filter_In in D1. tauto.
    + unfold apply_swap_edge in Ap. destruct (find_edge g i) as [e|] eqn:En; [|discriminate]. destruct Dr as (D1 & _).
      destruct (swap_set (edge_swap_models L g (e_src e) (e_dst e)) (ccls (e_model (e_dat e)))) as [|x r] eqn:Es; [injection Ap as <-; left; exact Hc|]. right.
      specialize (D1 e En ltac:(rewrite Es; discriminate)). unfold swap_set in D1. apply filter_In in D1. destruct D1 as [D1 _].
      unfold edge_swap_models in D1. destruct (match node_cls g (e_src e) with Some TerminalSource => true | _ => false end); [auto|].
      destruct (match node_cls g (e_dst e) with Some TerminalSink => true | _ => false end); auto.
Qed.

Lemma run_loadable : forall L g os g', library_loadable L -> wf g -> acyclic g -> evo_run L g os g' -> loadable g -> loadable g'.
Proof.
  intros L g os g' LL W A R; revert W A; induction R as [g|g o g1 os g2 S R IH]; intros W A Ld; [exact Ld|].
  destruct (step_effect L g o g1 W A S) as [W1 Ef]. pose proof (effect_acyclic L g o g1 W A Ef) as A1. apply IH; [exact W1|exact A1|]. intros c Hc. destruct (step_class L g o g1 c W A S Hc) as [H|H]; [apply Ld; exact H|apply LL; tauto].
Qed.

Lemma typed_node : forall g n c, typed g -> model_at g n c -> can_be_node c /\ (family_of (ccls c) = MultiPath -> 0 < departures g n).
Proof.
  intros g n c T M. assert (Nd : is_node g n) by (destruct M as (d & Hd & _); exists d; exact Hd).
  assert (Di : no_input g n \/ ~ no_input g n).
  { destruct (existsb (fun e => Nat.eqb (e_dst e) n) (g_edges g)) eqn:E.
    - right. intros [_ C]. apply existsb_exists in E; destruct E as (e & He & X). apply Nat.eqb_eq in X. exact (C e He X).
    - left. split; [exact Nd|]. intros e He X. assert (existsb (fun e => Nat.eqb (e_dst e) n) (g_edges g) = true) by (apply existsb_exists; exists e; rewrite X, Nat.eqb_refl; auto). congruence. }
  assert (Do : no_output g n \/ ~ no_output g n /\ 0 < departures g n).
  { unfold departures. destruct (filter (fun e => Nat.eqb (e_src e) n) (g_edges g)) as [|e r] eqn:E.
    - left. split; [exact Nd|]. intros e He X. assert (In e []) by (rewrite <- E; apply filter_In; rewrite X, Nat.eqb_refl; auto). contradiction.
    - right. split; [|simpl; lia]. intros [_ C]. assert (In e (filter (fun e => Nat.eqb (e_src e) n) (g_edges g))) by (rewrite E; left; reflexivity).
      apply filter_In in H; destruct H as [H X]. apply Nat.eqb_eq in X. exact (C e H X). }
  unfold can_be_node. destruct Di as [Di|Di].
  - rewrite (ty_source g T n c Di M). split; [auto|discriminate].
  - destruct Do as [Do|[Do P]].
    + rewrite (ty_sink g T n c Di Do M). split; [auto|discriminate].
    + rewrite (ty_inner g T n c (conj Nd (conj Di Do)) M). auto.
Qed.

(* lengths of parameter lists, by class *)
Definition lengths_ok (g : graph) (s : store) : Prop :=
  (forall n c, model_at g n c -> family_of (ccls c) = MultiPath -> exists o ps, has s (cid c) o ps /\ length ps = pred (departures g n)) /\
  (forall c, In c (components g) -> family_of (ccls c) = TermSource \/ family_of (ccls c) = TermSink -> exists o, has s (cid c) o []).

Lemma lengths_sized : forall g s, typed g -> lengths_ok g s -> sized g s.
Proof.
  intros g s T [L1 L2] n c o ps M H. destruct (typed_node g n c T M) as [Cn P]. destruct (family_of (ccls c)) eqn:Ef; try (destruct Cn as [C|[C|C]]; congruence).
  - destruct (L1 n c M Ef) as (o' & ps' & H' & Ln). destruct (has_fun _ _ _ _ _ _ H H') as [_ ->]. specialize (P eq_refl). lia.
  - destruct (L2 c) as (o' & H'); [apply (sits_comp g c (PNode n)); exact M|auto|]. apply (has_fun _ _ _ _ _ _ H H').
  - destruct (L2 c) as (o' & H'); [apply (sits_comp g c (PNode n)); exact M|auto|]. apply (has_fun _ _ _ _ _ _ H H').
Qed.

Lemma same_lengths : forall g s s', s_objs s' = s_objs s ->
  (forall l ps, assoc l (s_lists s) = Some ps -> exists ps', assoc l (s_lists s') = Some ps' /\ length ps' = length ps) -> lengths_ok g s -> lengths_ok g s'.
Proof.
  intros g s s' E F [L1 L2]. split.
  - intros n c M Fc. destruct (L1 n c M Fc) as (o & ps & [H1 H2] & Ln). destruct (F _ _ H2) as (ps' & H3 & Ln'). exists o, ps'. split; [split; [rewrite E; exact H1|exact H3]|congruence].
  - intros c Hc Fc. destruct (L2 c Hc Fc) as (o & [H1 H2]). destruct (F _ _ H2) as (ps' & H3 & Ln'). destruct ps'; [|discriminate]. exists o. split; [rewrite E; exact H1|exact H3].
Qed.

Lemma term_default : forall c, family_of c = TermSource \/ family_of c = TermSink -> sp_def (spec_of c) = [].
Proof. intros [] [H|H]; try discriminate H; reflexivity. Qed.

Lemma construct_all_has : forall cs s, NoDup (map cid cs) -> forall c, In c cs -> exists l, has (construct_all cs s) (cid c) (obj_of_spec l (spec_of (ccls c))) (sp_def (spec_of (ccls c))).
Proof.
  induction cs as [|c cs IH]; intros s ND d Hd; [contradiction|]. cbn [map] in ND. inversion ND as [|? ? Nc NDr]; subst. cbn [construct_all fold_left]. destruct Hd as [<-|Hd].
  - destruct (construct_has s c) as (l & _ & H). exists l. clear -Nc H. revert H. generalize (construct s c) as s1. revert Nc. induction cs as [|d cs IH]; intros Nc s1 H; [exact H|]. cbn [fold_left].
    apply IH; [intros C; apply Nc; right; exact C|]. apply construct_keeps; [|exact H]. intros C; apply Nc; left; congruence.
  - apply (IH (construct s c) NDr d Hd).
Qed.

Lemma new_lengths : forall nodes edges cur parent g w, NoDup (map fst nodes) -> init_graph nodes edges = Some g -> typed g ->
  NoDup (map (fun p => cid (snd p)) nodes ++ map (fun p => cid (snd p)) edges) -> new_world nodes edges cur parent = Ok w -> lengths_ok (w_graph w) (w_store w).
Proof.
  intros nodes edges cur parent g w ND Hi T DO Hw.
  destruct (new_healthy_gen nodes edges cur parent ND g Hi T DO) as (w1 & H1 & H2 & _ & _ & _ & _ & (So & D & _) & _). assert (w1 = w) by congruence; subst w1.
  unfold new_world in Hw. rewrite Hi in Hw. cbn [of_option bind] in Hw. apply bind_ok in Hw; destruct Hw as (s & Hu & Hw). injection Hw as <-. cbn [w_graph w_store] in *. clear H1 H2.
  destruct So as (W & A & _).
  assert (Dn : NoDup (map (fun p => cid (n_model (snd p))) (g_nodes g))).
  { unfold distinct_objects, components in D. rewrite map_app, map_map in D. apply HessianProofs.NoDup_app_l in D. exact D. }
  destruct (update_graph_full g (construct_all (components g) (mkStore [] [])) A W) as (s' & E & Dm & K & M & G & _); [|exact Dn|].
  { intros [n d] Hp. split; [|apply (typed_node g n (n_model d) T); exists d; auto]. destruct (construct_all_has (components g) (mkStore [] []) D (n_model d)) as (l & H).
    - apply (sits_comp g _ (PNode n)). exists d; auto.
    - eapply assoc_In_fst; exact (proj1 H). }
  assert (s' = s) by congruence; subst s'. split.
  - intros n c (d & Hd & <-) Fc. destruct (construct_all_has (components g) (mkStore [] []) D (n_model d)) as (l & H); [apply (sits_comp g _ (PNode n)); exists d; auto|].
    destruct (M (n, d) _ Hd Fc (proj1 H)) as (l' & H'). cbv zeta in H'. eexists; eexists; split; [exact H'|]. apply split_default_length.
  - intros c Hc Fc. destruct (construct_all_has (components g) (mkStore [] []) D c Hc) as (l & H). rewrite (term_default _ Fc) in H. eexists. eapply same_has; [|exact G|exact H].
    apply K. intros p Hp Fp C. assert (X : n_model (snd p) = c).
    { apply (NoDup_map_inj_In cid (components g)); [exact D| |exact Hc|exact C]. unfold components. apply in_or_app; left. apply (in_map (fun p => n_model (snd p))); exact Hp. }
    rewrite X in Fp. rewrite Fp in Fc. destruct Fc; discriminate.
Qed.

Lemma readable_backed : forall g s, all_readable g s -> backed g s.
Proof. intros g s R i Ui. destruct (R i Ui) as (o & ps & H & _). exists o, ps; exact H. Qed.

Lemma session_lengths : forall L ops w0 w, lib_ok L -> NoDup ops -> session L ops w0 w -> healthy w0 -> store_ok (w_store w0) -> lengths_ok (w_graph w0) (w_store w0) ->
  lengths_ok (w_graph w) (w_store w).
Proof.
  intros L ops w0 w LO OND H H0 S0 L0. induction H as [|w c w' r H IH F E|w d rs s' H IH F E|w x vs s' H IH Ex B E|w h H IH|w s' H IH E].
  - exact L0.
  - destruct (session_gen L ops w0 w LO OND H H0 S0) as ((So & D & _) & _ & _).
    destruct (evolve_within L ops w c w' r LO OND So F E) as [So' [(o & -> & Ho & Stp)|[-> _]]]; [|exact IH].
    destruct (evolve_resets L ops w c w' o LO OND So D F E) as (D' & R1 & R2). destruct IH as [L1 L2]. split.
    + intros n c0 (d & Hd & <-) Fc. destruct (R1 n d Hd Fc) as (ob & Hh). exists ob, (split_default (pred (departures (w_graph w') n))). split; [exact Hh|apply split_default_length].
    + intros c0 Hc Fc. destruct So as (W & A & _). destruct (step_class L _ o _ c0 W A Stp Hc) as [Hin|Hin].
      * destruct (L2 c0 Hin Fc) as (ob & Hh). exists ob. assert (Us : used (w_graph w) (cid c0)) by (apply used_components; exists c0; auto).
        destruct Us as (c1 & pl & Si & Ec). rewrite <- Ec. rewrite <- Ec in Hh. apply (R2 c1 pl ob [] Si Hh). intros n d Hd Fd C.
        assert (X : n_model d = c0).
        { apply (NoDup_map_inj_In cid (components (w_graph w'))); [exact D'| |exact Hc|congruence]. apply (sits_comp _ _ (PNode n)). exists d; auto. }
        rewrite X in Fd. rewrite Fd in Fc. destruct Fc; discriminate.
      * exfalso. destruct Hin as [X|[X|[X|X]]]; [apply (lib_source L LO) in X|apply (lib_sink L LO) in X|apply (lib_edge L LO) in X|apply (lib_node L LO) in X]; rewrite X in Fc; destruct Fc; discriminate.
  - cbn [with_store w_graph w_store]. unfold sample_parameters in E. apply bind_ok in E; destruct E as (x & _ & E). apply bind_ok in E; destruct E as (vs & _ & E).
    apply distribute_frame in E. destruct E as (E1 & _ & E3). eapply same_lengths; [exact E1| |exact IH]. intros l ps El. destruct (E3 l ps El) as (ps' & Y1 & Y2 & _). exists ps'; auto.
  - cbn [with_store w_graph w_store]. apply distribute_frame in E. destruct E as (E1 & _ & E3). eapply same_lengths; [exact E1| |exact IH]. intros l ps El. destruct (E3 l ps El) as (ps' & Y1 & Y2 & _). exists ps'; auto.
  - exact IH.
  - destruct (session_gen L ops w0 w LO OND H H0 S0) as (((W & A & T & Rd & Wi) & D & _) & _ & _).
    destruct (update_good (w_graph w) (w_store w) W A T) as (s2 & Eu & _ & K & R1); [intros i Ui; split; [apply Wi|apply Rd]; exact Ui|].
    assert (s2 = s') by congruence; subst s2. cbn [with_store w_graph w_store]. destruct IH as [L1 L2]. split.
    + intros n c0 (d & Hd & <-) Fc. destruct (R1 D n d Hd Fc) as (ob & Hh & _). exists ob, (split_default (pred (departures (w_graph w) n))). split; [exact Hh|apply split_default_length].
    + intros c0 Hc Fc. destruct (L2 c0 Hc Fc) as (ob & Hh). exists ob. apply K; [|exact Hh]. intros n d Hd Fd C.
      assert (X : n_model d = c0).
      { apply (NoDup_map_inj_In cid (components (w_graph w))); [exact D| |exact Hc|congruence]. apply (sits_comp _ _ (PNode n)). exists d; auto. }
      rewrite X in Fd. rewrite Fd in Fc. destruct Fc; discriminate.
Qed.

Theorem session_savable : forall L ops nodes edges cur parent g w0 w, lib_ok L -> NoDup ops -> NoDup (map fst nodes) ->
  NoDup (map (fun p => cid (snd p)) nodes ++ map (fun p => cid (snd p)) edges) ->
  init_graph nodes edges = Some g -> typed g -> new_world nodes edges cur parent = Ok w0 -> session L ops w0 w ->
  savable (w_graph w) (w_store w) /\ separate (w_store w) /\ (library_loadable L -> loadable g -> loadable (w_graph w)).
Proof.
  intros L ops nodes edges cur parent g w0 w LO OND ND DO Hi T Hw Hs.
  destruct (new_healthy_gen nodes edges cur parent ND g Hi T DO) as (w1 & H1 & H2 & _ & _ & _ & _ & H7 & H8). assert (w1 = w0) by congruence; subst w1.
  destruct (session_gen L ops w0 w LO OND Hs H7 H8) as ((So & D & _) & St & os & _ & R).
  pose proof (new_lengths nodes edges cur parent g w0 ND Hi T DO Hw) as L0. pose proof (session_lengths L ops w0 w LO OND Hs H7 H8 L0) as Ls.
  destruct So as (W & A & T' & Rd & Wi). rewrite H2 in R. destruct (init_graph_some nodes edges g ND Hi) as (Wg & Ag & _).
  split; [|split; [apply St|intros LL Ld; exact (run_loadable L g os (w_graph w) LL Wg Ag R Ld)]].
  split; [exact W|]. split; [exact A|]. split; [exact (run_grouped L g os (w_graph w) R (init_grouped nodes edges g ND Hi))|].
  split; [intros n c M; apply (typed_node _ n c T' M)|]. split; [apply readable_backed; exact Rd|]. apply lengths_sized; assumption.
Qed.
