(** Newly built graphs meet the hypotheses used elsewhere, and keep meeting them. *)
From Coq Require Import List Arith Bool Lia ZArith QArith Qabs Qround Lqa Permutation.
From Verif Require Import Base GraphModel GraphSpec GraphProofs TopoProofs OperatorsModel OperatorsSpec OperatorsProofs EvolutionProofs
  TypingProofs EffectsProofs InitSpec InitProofs ParamsModel ParamsSpec EvolverModel EvolverSpec EvolveSpec ParamsProofs SamplingProofs MatrixProofs
  EvolverProofs HessianProofs ChoiceProofs EvolveProofs LineageProofs.
Import ListNotations.
Local Open Scope nat_scope.

Definition obj_sampleable (o : obj) : Prop := forall k, free o k -> exists lo hi st t,
    nth_error (o_lo o) k = Some lo /\ nth_error (o_hi o) k = Some hi /\ nth_error (o_steps o) k = Some st /\
    nth_error (o_types o) k = Some t /\ sampleable lo hi st t.
Definition store_ok (s : store) : Prop := separate s /\ forall i o, assoc i (s_objs s) = Some o -> obj_sampleable o.

Lemma construct_store_ok : forall s c, store_ok s -> store_ok (construct s c).
Proof.
  intros s c ((In_ & Inj) & Sm). unfold construct. set (l := fresh_key (s_lists s)).
  assert (Nl : ~ In l (map fst (s_lists s))) by apply fresh_key_not_In.
  split; [split|]; cbn [s_objs s_lists].
  - intros i o E. rewrite assoc_put in E. rewrite map_app. apply in_or_app. destruct (Nat.eqb_spec i (cid c)).
    + injection E as <-. right; left; reflexivity.
    + left. eapply In_; exact E.
  - intros i j o o' E1 E2 El. rewrite assoc_put in E1. rewrite assoc_put in E2.
    destruct (Nat.eqb_spec i (cid c)) as [Ei|Ei]; destruct (Nat.eqb_spec j (cid c)) as [Ej|Ej].
    + congruence.
    + injection E1 as <-. cbn [o_list obj_of_spec] in El. exfalso; apply Nl. rewrite El. eapply In_; exact E2.
    + injection E2 as <-. cbn [o_list obj_of_spec] in El. exfalso; apply Nl. rewrite <- El. eapply In_; exact E1.
    + eapply Inj; eassumption.
  - intros i o E. rewrite assoc_put in E. destruct (Nat.eqb_spec i (cid c)); [|eapply Sm; exact E].
    injection E as <-. intros k [F1 F2]. cbn [o_lock o_locks obj_of_spec o_lo o_hi o_types o_steps] in *. apply (every_class_sampleable (ccls c) k F1 F2).
Qed.

Lemma splitter_store_ok : forall s i n s', store_ok s -> splitter_update s i n = Ok s' -> store_ok s'.
Proof.
  intros s i n s' ((In_ & Inj) & Sm) H. unfold splitter_update in H. apply bind_ok in H; destruct H as (o0 & Ho & H). apply get_obj_ok in Ho.
  injection H as <-. set (l := fresh_key (s_lists s)). assert (Nl : ~ In l (map fst (s_lists s))) by apply fresh_key_not_In.
  assert (Hin : In i (map fst (s_objs s))) by (eapply assoc_In_fst; exact Ho).
  split; [split|]; cbn [s_objs s_lists].
  - intros j o E. rewrite (assoc_set_assoc i j _ _ Hin) in E. rewrite map_app. apply in_or_app. destruct (Nat.eqb_spec j i).
    + injection E as <-. right; left; reflexivity.
    + left. eapply In_; exact E.
  - intros a b o o' E1 E2 El. rewrite (assoc_set_assoc i a _ _ Hin) in E1. rewrite (assoc_set_assoc i b _ _ Hin) in E2.
    destruct (Nat.eqb_spec a i) as [Ei|Ei]; destruct (Nat.eqb_spec b i) as [Ej|Ej].
    + congruence.
    + injection E1 as <-. cbn [o_list] in El. exfalso; apply Nl. rewrite El. eapply In_; exact E2.
    + injection E2 as <-. cbn [o_list] in El. exfalso; apply Nl. rewrite <- El. eapply In_; exact E1.
    + eapply Inj; eassumption.
  - intros j o E. rewrite (assoc_set_assoc i j _ _ Hin) in E. destruct (Nat.eqb_spec j i); [|eapply Sm; exact E].
    injection E as <-. intros k [_ F]. cbn [o_locks o_lo o_hi o_types o_steps] in *.
    assert (K : k < pred n) by (assert (X : k < length (rep (pred n) false)) by (apply nth_error_Some; congruence); unfold rep in X; rewrite repeat_length in X; exact X).
    exists (dec 0 0), (dec 1 0), None, DFloat. rewrite !nth_rep by exact K. repeat (split; [reflexivity|]).
    exists 0%Q, 1%Q. split; [reflexivity|]. split; [reflexivity|]. lra.
Qed.

Lemma update_store_ok : forall g s s', store_ok s -> update_graph g s = Ok s' -> store_ok s'.
Proof.
  intros g s s' S H. unfold update_graph in H. destruct (topological_sort g); [|discriminate].
  revert s S H. generalize (g_nodes g) as ns. induction ns as [|p ns IH]; intros s S H; cbn [fold_res] in H; [injection H as <-; exact S|].
  apply bind_ok in H; destruct H as (s1 & H1 & H2). apply (IH s1); [|exact H2]. unfold update_attributes in H1.
  destruct (family_of _); try discriminate; try (injection H1 as <-; exact S). eapply splitter_store_ok; eassumption.
Qed.

Lemma distribute_store_ok : forall vs ms ks s s', store_ok s -> distribute vs ms ks s = Ok s' -> store_ok s'.
Proof.
  intros vs ms ks s s' ((In_ & Inj) & Sm) H. apply distribute_frame in H; destruct H as (E1 & E2 & _). split; [split|]; rewrite E1; rewrite ?E2; assumption.
Qed.

Lemma construct_drawn_ok : forall L o l g d s, store_ok s -> store_ok (construct_drawn L o l g d s).
Proof. intros L o l g d s S; destruct o; simpl; repeat apply construct_store_ok; exact S. Qed.

Lemma evolve_store_ok : forall L ops w c w' r, do_call L ops w c = (w', r) -> store_ok (w_store w) -> store_ok (w_store w').
Proof.
  intros L ops w c w' r H S. unfold do_call, evolve_graph in H.
  destruct (create_matrix _ _ _ _ _ _ _) as [[rows m]|e]; [|injection H as <- _; exact S].
  destruct (sample_matrix _ _ _ _) as [[l o]|e]; [|injection H as <- _; exact S].
  destruct (apply_op _ _ _ _ _) as [g'|]; [|injection H as <- _; exact S]. cbv zeta in H.
  pose proof (construct_drawn_ok L o l (w_graph w) (ch_draws (c_ch c)) (w_store w) S) as S1.
  destruct (update_graph _ _) as [s2|e] eqn:Eu; [|injection H as <- _; exact S1].
  pose proof (update_store_ok _ _ _ S1 Eu) as S2.
  destruct (bind _ _); injection H as <- _; exact S2.
Qed.

Lemma NoDup_app_r' : forall {A} (l l' : list A), NoDup (l ++ l') -> NoDup l'.
Proof. intros A l l'; induction l as [|a r IH]; intros H; [exact H|]. inversion H; apply IH; assumption. Qed.

Lemma sits_comp : forall g c pl, sits g c pl -> In c (components g).
Proof.
  intros g c [n|i] H; unfold components; apply in_or_app.
  - left. destruct H as (d & Hd & <-). apply in_map_iff; exists (n, d); auto.
  - right. destruct H as (e & He & _ & <-). apply in_map_iff; exists e; auto.
Qed.

Lemma distinct_places : forall g c pl c' pl', wf g -> distinct_objects g -> sits g c pl -> sits g c' pl' -> cid c = cid c' -> pl = pl'.
Proof.
  intros g c pl c' pl' W D H H' E. unfold distinct_objects, components in D. rewrite map_app, !map_map in D.
  destruct pl as [n|i]; destruct pl' as [n'|i'].
  - destruct H as (d & Hd & <-). destruct H' as (d' & Hd' & <-). apply NoDup_app_l in D.
    pose proof (NoDup_map_inj_In (fun p => cid (n_model (snd p))) _ _ _ D Hd Hd' E) as X. congruence.
  - exfalso. destruct H as (d & Hd & <-). destruct H' as (e & He & _ & <-).
    assert (X : In (cid (n_model d)) (map (fun p => cid (n_model (snd p))) (g_nodes g))) by (apply in_map_iff; exists (n, d); auto).
    assert (Y : In (cid (n_model d)) (map (fun e => cid (e_model (e_dat e))) (g_edges g))) by (apply in_map_iff; exists e; auto).
    revert D X Y. clear. induction (map (fun p => cid (n_model (snd p))) (g_nodes g)) as [|a r IH]; intros D X Y; [destruct X|].
    simpl in D; inversion D as [|? ? N D']; subst. destruct X as [->|X]; [apply N, in_or_app; right; exact Y|apply IH; assumption].
  - exfalso. destruct H' as (d & Hd & <-). destruct H as (e & He & _ & <-).
    assert (X : In (cid (n_model d)) (map (fun p => cid (n_model (snd p))) (g_nodes g))) by (apply in_map_iff; exists (n', d); auto).
    assert (Y : In (cid (n_model d)) (map (fun e => cid (e_model (e_dat e))) (g_edges g))) by (apply in_map_iff; exists e; auto).
    revert D X Y. clear. induction (map (fun p => cid (n_model (snd p))) (g_nodes g)) as [|a r IH]; intros D X Y; [destruct X|].
    simpl in D; inversion D as [|? ? N D']; subst. destruct X as [->|X]; [apply N, in_or_app; right; exact Y|apply IH; assumption].
  - destruct H as (e & He & <- & <-). destruct H' as (e' & He' & <- & <-).
    apply NoDup_app_r' in D. pose proof (NoDup_map_inj_In (fun e => cid (e_model (e_dat e))) _ _ _ D He He' E) as X. congruence.
Qed.

Lemma ok_unshared : forall g s, wf g -> distinct_objects g -> store_ok s -> unshared g s /\ all_sampleable g s.
Proof.
  intros g s W D ((In_ & Inj) & Sm). split.
  - intros c pl c' pl' o ps o' ps' S S' [H _] [H' _] E. eapply distinct_places; [exact W|exact D|exact S|exact S'|]. eapply Inj; eassumption.
  - intros i o ps k _ [H _] F. apply (Sm i o H k F).
Qed.

(** ** The new graph *)

Lemma construct_all_spec : forall cs s, store_ok s -> NoDup (map cid cs) ->
  store_ok (construct_all cs s) /\
  (forall i, ~ In i (map cid cs) -> keeps s (construct_all cs s) i) /\
  (forall c, In c cs -> good (construct_all cs s) (cid c)).
Proof.
  induction cs as [|c cs IH]; intros s S ND; cbn [construct_all fold_left].
  - split; [exact S|]. split; [intros i _ o ps H; exact H|intros c []].
  - inversion ND as [|? ? N ND']; subst. destruct (IH (construct s c) (construct_store_ok s c S) ND') as (S' & K & G).
    split; [exact S'|]. split.
    + intros i Ni. simpl in Ni. apply keeps_trans with (construct s c); [apply construct_keeps; intros Ec; apply Ni; left; congruence|]. apply K. tauto.
    + intros c' [<-|Hc]; [|apply G; exact Hc]. eapply keeps_good; [apply K; exact N|apply construct_good].
Qed.

Definition new_store_ok : store_ok (mkStore [] []).
Proof. split; [split|]; cbn; discriminate. Qed.

Lemma new_healthy_gen : forall nodes edges cur parent, NoDup (map fst nodes) ->
  forall g, init_graph nodes edges = Some g -> typed g -> NoDup (map (fun p => cid (snd p)) nodes ++ map (fun p => cid (snd p)) edges) ->
  exists w, new_world nodes edges cur parent = Ok w /\ w_graph w = g /\ w_cur w = cur /\ w_parent w = parent /\ w_mut w = None /\ w_hess w = None /\
    healthy w /\ store_ok (w_store w).
Proof.
  intros nodes edges cur parent ND g Hi T DO.
  destruct (init_graph_some nodes edges g ND Hi) as (W & A & Nm & _ & Pc).
  assert (D : distinct_objects g).
  { unfold distinct_objects, components. rewrite map_app, !map_map. eapply Permutation_NoDup; [|exact DO]. apply Permutation_app.
    - rewrite <- Nm. unfold node_models_of. rewrite map_map. apply Permutation_refl.
    - apply Permutation_sym. assert (X : Permutation (map (fun t => cid (snd t)) (connections g)) (map (fun t => cid (snd t)) (map (fun p => match p with ((u, v, _), c) => (u, v, c) end) edges))).
      { apply Permutation_map. exact Pc. }
      unfold connections in X. rewrite !map_map in X.
      replace (map (fun p => cid (snd p)) edges) with (map (fun x : eid * comp => cid (snd (let (p0, c) := x in let (p1, _) := p0 in let (u, v) := p1 in (u, v, c)))) edges); [exact X|].
      apply map_ext. intros [[[u v] k] c]; reflexivity. }
  destruct (construct_all_spec (components g) (mkStore [] []) new_store_ok D) as (S1 & _ & G1).
  assert (G : forall i, used g i -> good (construct_all (components g) (mkStore [] [])) i).
  { intros i U. apply used_components in U; destruct U as (c & Hc & <-). apply G1; exact Hc. }
  destruct (update_good g _ W A T G) as (s2 & Eu & G2 & _). pose proof (update_store_ok _ _ _ S1 Eu) as S2.
  exists (mkW g s2 cur parent None None). unfold new_world. rewrite Hi. cbn [of_option bind]. rewrite Eu. cbn [bind].
  repeat (split; [reflexivity|]). split; [|exact S2]. destruct (ok_unshared g s2 W D S2) as [Us Sa].
  split; [|split; [exact D|split; [exact Us|exact Sa]]].
  split; [exact W|]. split; [exact A|]. split; [exact T|]. split; intros i U; apply G2; exact U.
Qed.

Lemma new_healthy : forall nodes edges cur parent, NoDup (map fst nodes) ->
  forall g, init_graph nodes edges = Some g -> typed g -> NoDup (map (fun p => cid (snd p)) nodes ++ map (fun p => cid (snd p)) edges) ->
  exists w, new_world nodes edges cur parent = Ok w /\ w_graph w = g /\ w_cur w = cur /\ w_parent w = parent /\ w_mut w = None /\ w_hess w = None /\
    healthy w.
Proof.
  intros nodes edges cur parent ND g Hi T DO. destruct (new_healthy_gen nodes edges cur parent ND g Hi T DO) as (w & H1 & H2 & H3 & H4 & H5 & H6 & H7 & _).
  exists w. repeat (split; [assumption|]). assumption.
Qed.

(** ** Sessions *)

Lemma same_free_readable : forall g s s' i, s_objs s' = s_objs s ->
  (forall l ps, assoc l (s_lists s) = Some ps -> exists ps', assoc l (s_lists s') = Some ps' /\ length ps' = length ps) ->
  used g i -> readable s i -> readable s' i.
Proof.
  intros g s s' i E1 E3 _ (o & ps & [Ho Hl] & R). destruct (E3 _ _ Hl) as (ps' & Hl' & Len). exists o, ps'. split; [split; [rewrite E1; exact Ho|exact Hl']|].
  intros k F. rewrite Len. apply R; exact F.
Qed.

Lemma write_sound : forall g s x vs s', wf g -> all_readable g s -> unshared g s -> extract g s = Ok x -> in_bounds vs (x_lo x) (x_hi x) ->
  distribute vs (x_models x) (x_index x) s = Ok s' -> all_readable g s' /\ all_within g s'.
Proof.
  intros g s x vs s' W R U Hx (B1 & B2 & B) Hd.
  pose proof (extract_aligned g s x W Hx) as (L1 & L2 & _).
  destruct (write_read g s x vs W Hx U ltac:(congruence)) as (s1 & x' & Ed & Hx' & Ep & Elo & Ehi & _). assert (s1 = s') by congruence; subst s1.
  pose proof (distribute_frame_graph g s x vs s' W Hx Hd) as (Fo & _ & Fl).
  assert (R' : all_readable g s').
  { intros i Ui. eapply same_free_readable; [exact Fo| |exact Ui|apply R; exact Ui]. intros l ps E. destruct (Fl l ps E) as (ps' & A1 & A2 & _); exists ps'; auto. }
  split; [exact R'|]. intros i Ui. destruct (R' i Ui) as (o & ps & [Ho Hl] & _). exists o, ps. split; [split; assumption|]. intros k F.
  destruct Ui as (c & pl & Hs & <-).
  destruct (extract_complete g s' x' c pl o k W Hx' Hs Ho F) as (j & J1 & J2 & J3).
  pose proof (extract_aligned g s' x' W Hx') as (_ & _ & L3' & _ & _ & _ & _ & Al').
  assert (K : j < length (x_params x')) by (rewrite <- L3'; apply nth_error_Some; congruence).
  destruct (Al' j K) as (c2 & pl2 & j2 & o2 & ps2 & v & lo & hi & t & st & Hs2 & Hh2 & F2 & M1 & M2 & M3 & M4 & M5 & M6 & M7 & M8 & M9 & _).
  assert (E1 : cid c2 = cid c) by congruence. assert (j2 = k) by congruence. subst j2. destruct Hh2 as [Ho2 Hl2]. rewrite E1, Ho in Ho2. injection Ho2 as <-.
  assert (ps2 = ps) by congruence. subst ps2. rewrite Ep in M4. rewrite Elo in M6. rewrite Ehi in M8.
  destruct (B j v lo hi M4 M6 M8) as (q & a & b & -> & -> & -> & C1 & C2). exists q, a, b. auto.
Qed.

Lemma session_gen : forall L ops w0 w, lib_ok L -> NoDup ops -> session L ops w0 w -> healthy w0 -> store_ok (w_store w0) ->
  healthy w /\ store_ok (w_store w) /\ exists os, incl os ops /\ evo_run L (w_graph w0) os (w_graph w).
Proof.
  intros L ops w0 w LO OND H H0 S0. induction H as [|w c w' r H IH F E|w d rs s' H IH F E|w x vs s' H IH Ex B E|w h H IH|w s' H IH E].
  - split; [exact H0|]. split; [exact S0|]. exists []. split; [intros x []|constructor].
  - destruct IH as ((So & D & _) & St & os & I & R). pose proof (evolve_store_ok L ops w c w' r E St) as St'.
    destruct (evolve_within L ops w c w' r LO OND So F E) as [So' [(o & -> & Ho & Stp)|[-> _]]].
    + destruct So as (W & A & _). destruct (step_effect L _ o _ W A Stp) as [W' Ef]. pose proof (effect_distinct L _ o _ W A W' Ef D) as D'.
      destruct (ok_unshared _ _ W' D' St') as [U' Sa']. split; [split; [exact So'|]; split; [exact D'|]; split; assumption|]. split; [exact St'|].
      exists (os ++ [o]). split; [intros y Hy; apply in_app_or in Hy; destruct Hy as [Hy|[<-|[]]]; [apply I; exact Hy|exact Ho]|].
      clear - R Stp. induction R as [g|g o1 g1 os1 g2 S1 R IH]; [econstructor; [exact Stp|constructor]|]. cbn [app]. econstructor; [exact S1|apply IH; exact Stp].
    + destruct (ok_unshared _ _ (proj1 So) D St) as [U Sa]. split; [split; [exact So|split; [exact D|split; [exact U|exact Sa]]]|]. split; [exact St|exists os; auto].
  - destruct IH as ((So & D & U & Sa) & St & os & I & R). destruct So as (W & A & T & Rd & Wi).
    assert (St' : store_ok s').
    { unfold sample_parameters in E. apply bind_ok in E; destruct E as (x & _ & E). apply bind_ok in E; destruct E as (vs & _ & E). eapply distribute_store_ok; eassumption. }
    destruct d as [| |].
    2: { (* a triangular request that returns had nothing to sample *)
         destruct (sample_parameters Triangle (w_graph w) (w_store w) rs) as [s1|] eqn:E1; [injection E as <-|discriminate].
         assert (s1 = w_store w).
         { unfold sample_parameters in E1. apply bind_ok in E1; destruct E1 as (x & Ex & E1). apply bind_ok in E1; destruct E1 as (vs & Ev & E1).
           destruct (x_params x) as [|p ps]; [injection Ev as <-; injection E1 as <-; reflexivity|]. simpl in Ev.
           destruct (x_lo x); [injection Ev as <-; injection E1 as <-; reflexivity|]. destruct (x_hi x); [injection Ev as <-; injection E1 as <-; reflexivity|].
           destruct (x_types x); [injection Ev as <-; injection E1 as <-; reflexivity|]. destruct (x_steps x); [injection Ev as <-; injection E1 as <-; reflexivity|]. discriminate. }
         subst s1. cbn [with_store w_graph w_store]. split; [|split; [exact St'|exists os; auto]].
         destruct w as [g s cu pa mu he]. cbn [with_store w_graph w_store w_cur w_parent w_mut w_hess] in *. exact (conj (conj W (conj A (conj T (conj Rd Wi)))) (conj D (conj U Sa))). }
    all: match type of E with sample_parameters ?d _ _ _ = _ => 
         destruct (sample_ok d (w_graph w) (w_store w) rs W Rd U Sa ltac:(discriminate) F) as (s1 & E1 & Wi' & Fr) end;
      assert (s1 = s') by congruence; subst s1; destruct (ok_unshared _ _ W D St') as [U' Sa'];
      (split; [|split; [exact St'|exists os; auto]]); cbn [with_store w_graph w_store];
      (split; [|split; [exact D|split; [exact U'|exact Sa']]]);
      (split; [exact W|split; [exact A|split; [exact T|split; [|exact Wi']]]]);
      destruct Fr as (Fo & _ & Fl); intros i Ui; (eapply same_free_readable; [exact Fo| |exact Ui|apply Rd; exact Ui]); intros l ps El;
      destruct (Fl l ps El) as (ps' & A1 & A2 & _); exists ps'; auto.
  - destruct IH as ((So & D & U & Sa) & St & os & I & R). destruct So as (W & A & T & Rd & Wi).
    pose proof (distribute_store_ok _ _ _ _ _ St E) as St'. destruct (ok_unshared _ _ W D St') as [U' Sa'].
    destruct (write_sound _ _ x vs s' W Rd U Ex B E) as [Rd' Wi']. split; [|split; [exact St'|exists os; auto]].
    exact (conj (conj W (conj A (conj T (conj Rd' Wi')))) (conj D (conj U' Sa'))).
  - exact IH.
  - destruct IH as ((So & D & U & Sa) & St & os & I & R). destruct So as (W & A & T & Rd & Wi).
    destruct (update_good (w_graph w) (w_store w) W A T) as (s2 & Eu & G2 & _); [intros i Ui; split; [apply Wi|apply Rd]; exact Ui|].
    assert (s2 = s') by congruence; subst s2. pose proof (update_store_ok _ _ _ St E) as St'. destruct (ok_unshared _ _ W D St') as [U' Sa'].
    split; [|split; [exact St'|exists os; auto]]. cbn [with_store w_graph w_store].
    split; [|split; [exact D|split; [exact U'|exact Sa']]]. split; [exact W|]. split; [exact A|]. split; [exact T|]. split; intros i Ui; apply G2; exact Ui.
Qed.

Lemma session_healthy : forall L ops nodes edges cur parent g w0 w, lib_ok L -> NoDup ops -> NoDup (map fst nodes) ->
  NoDup (map (fun p => cid (snd p)) nodes ++ map (fun p => cid (snd p)) edges) ->
  init_graph nodes edges = Some g -> typed g -> new_world nodes edges cur parent = Ok w0 -> session L ops w0 w ->
  healthy w /\ exists os, incl os ops /\ evo_run L g os (w_graph w).
Proof.
  intros L ops nodes edges cur parent g w0 w LO OND ND DO Hi T Hw Hs.
  destruct (new_healthy_gen nodes edges cur parent ND g Hi T DO) as (w1 & H1 & H2 & _ & _ & _ & _ & H7 & H8). assert (w1 = w0) by congruence; subst w1.
  destruct (session_gen L ops w0 w LO OND Hs H7 H8) as (G & _ & Ex). rewrite H2 in Ex. auto.
Qed.
