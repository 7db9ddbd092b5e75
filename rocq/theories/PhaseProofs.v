(** Lemmas on the phase sensitivity evaluators. *)
From Coq Require Import Reals Qreals List Arith ZArith QArith Lia Lra Bool Permutation Relations Classical_Prop.
From Verif Require Import Base GraphModel GraphSpec GraphProofs TopoProofs OperatorsSpec OperatorsProofs EvolutionProofs EffectsProofs TypingProofs InitProofs ParamsModel ParamsSpec ParamsProofs EvolverModel EvolveSpec EvolveProofs BuildProofs PropagateModel PropagateSpec PropagateProofs SessionSaveProofs FlowSpec FlowProofs
  Complex ArrayModel ComponentModel ComponentSpec DetectorModel MoreComponentsModel MoreComponentsSpec FilterProofs ComponentProofs GridProofs OpticsModel OpticsSpec OpticsComponentProofs OpticsProofs StrengthProofs NetworkProofs OpticsBoundProofs PhaseModel PhaseSpec LinearProofs LinearNetworkProofs.
Import ListNotations.
Local Open Scope R_scope.

(** ** Phase models *)
Lemma filter_sole : forall {A} (f : A -> bool) l a, NoDup l -> In a l -> (forall x, In x l -> (f x = true <-> x = a)) -> filter f l = [a].
Proof.
  intros A f. induction l as [|b l IH]; intros a N I H; [contradiction|]. inversion N as [|? ? Nb N']; subst. cbn [filter].
  destruct (f b) eqn:Fb.
  - assert (b = a) by (apply H; [left; reflexivity|exact Fb]). subst b. f_equal.
    assert (G : forall x, In x l -> f x = false) by (intros x Hx; destruct (f x) eqn:E; [|reflexivity]; exfalso; apply Nb; rewrite <- (proj1 (H x (or_intror Hx)) E); exact Hx).
    clear - G. induction l as [|x l IH]; [reflexivity|]. cbn [filter]. rewrite (G x (or_introl eq_refl)). apply IH. intros y Hy. apply G. right; exact Hy.
  - destruct I as [I|I]; [subst b; assert (f a = true) by (apply H; [left; reflexivity|reflexivity]); congruence|]. apply IH; [exact N'|exact I|]. intros x Hx. apply H. right; exact Hx.
Qed.
Lemma phase_models_sole : forall g e0, wf g -> sole_shifter g e0 -> phase_models g = [e_model (e_dat e0)].
Proof.
  intros g e0 W [I H]. unfold phase_models. assert (E : forall l : list edge, filter (fun c => cls_eqb (ccls c) PhaseShifter) (map (fun e => e_model (e_dat e)) l) = map (fun e => e_model (e_dat e)) (filter (fun e => cls_eqb (ccls (e_model (e_dat e))) PhaseShifter) l)).
  { induction l as [|e l IH]; [reflexivity|]. cbn [map filter]. destruct (cls_eqb _ _); cbn [map]; rewrite IH; reflexivity. }
  rewrite E. rewrite (filter_sole _ (g_edges g) e0); [reflexivity|exact (NoDup_map_inv _ _ (wf_keys g W))|exact I|]. intros e He. rewrite cls_eqb_eq. exact (H e He).
Qed.

Lemma distinct_edges : forall g e e', distinct_objects g -> In e (g_edges g) -> In e' (g_edges g) -> cid (e_model (e_dat e)) = cid (e_model (e_dat e')) -> e = e'.
Proof.
  intros g e e' D H H' E. unfold distinct_objects, components in D. rewrite map_app in D. apply NoDup_app_r' in D. rewrite map_map in D.
  revert D H H'. generalize (g_edges g). induction l as [|x l IH]; intros D H H'; [contradiction|]. cbn [map] in D. inversion D as [|? ? N D']; subst.
  destruct H as [<-|H], H' as [<-|H']; [reflexivity| | |apply IH; assumption]; exfalso; apply N.
  - rewrite E. apply (in_map (fun e => cid (e_model (e_dat e)))). exact H'.
  - rewrite <- E. apply (in_map (fun e => cid (e_model (e_dat e)))). exact H.
Qed.

(** ** Behaviours that agree on the components of a graph *)
Section Agree.
Variables (S X : Type) (B1 B2 : behaviour S X) (g : graph) (src : S).
Hypothesis W : wf g.
Hypothesis Hn : forall n c ss i o x, model_at g n c -> node_act B1 c ss i o x = node_act B2 c ss i o x.
Hypothesis He : forall e s x, In e (g_edges g) -> edge_act B1 (e_model (e_dat e)) s x = edge_act B2 (e_model (e_dat e)) s x.
Lemma send_agree : forall es i states x sv, (forall e, In e es -> In e (g_edges g)) -> send B1 es i states x sv = send B2 es i states x sv.
Proof.
  induction es as [|e es IH]; intros i states x sv H; [reflexivity|]. cbn [send]. destruct (nth_error states i); [|reflexivity]. rewrite He by (apply H; left; reflexivity).
  destruct (edge_act B2 _ _ _) as [x' [s'|er]]; [|reflexivity]. apply IH. intros e' H'. apply H. right; exact H'.
Qed.
Lemma node_data_at : forall n d, node_data g n = Some d -> model_at g n (n_model d).
Proof. intros n d H. exists d. split; [|reflexivity]. unfold node_data in H. apply assoc_In. exact H. Qed.
Lemma propagate_agree : forall x old, propagate B1 g src x old = propagate B2 g src x old.
Proof.
  intros x old. unfold propagate. destruct (topological_sort g) as [o|]; [|reflexivity]. unfold propagate_along. generalize (@nil (place * S)). revert x.
  induction o as [|n o IH]; intros x sv; [reflexivity|]. cbn [visit_all].
  assert (V : visit B1 g src n x sv = visit B2 g src n x sv).
  { unfold visit. destruct (node_inputs g src sv n); [|reflexivity]. destruct (node_data g n) as [nd|] eqn:En; [|reflexivity]. rewrite (Hn n) by (apply node_data_at; exact En).
    destruct (node_act B2 _ _ _ _ _) as [x' [states|er]]; [|reflexivity].
    assert (G : forall e, In e (get_out_edges g n) -> In e (g_edges g)) by (intros e H; unfold get_out_edges in H; apply filter_In in H as [H _]; apply (In_edges_view g e W); exact H).
    destruct (Nat.eqb _ _); [destruct states; [reflexivity|]|]; apply send_agree; exact G. }
  rewrite V. destruct (visit B2 g src n x sv) as [[x' sv'] [[]|er]]; [apply IH|reflexivity].
Qed.
End Agree.

(** ** The parameter of the phase shifter *)
Lemma assoc_key : forall {A} (l : list (nat * A)) k a, assoc k l = Some a -> In k (map fst l).
Proof. intros A l k a H. apply assoc_In in H. apply (in_map fst) in H. exact H. Qed.
Lemma assign_reads : forall s k o ps vs, has s k o ps -> exists s', assign_parameters s k vs = Ok s' /\ get_params s' k = Ok vs /\ forall i o' ps', i <> k -> has s i o' ps' -> get_params s' i = Ok ps'.
Proof.
  intros s k o ps vs [Ho Hl]. unfold assign_parameters, set_param_list, get_obj. cbn [s_objs s_lists]. rewrite Ho. cbn [of_option bind]. eexists. split; [reflexivity|].
  split.
  - unfold get_params, get_obj, get_list. cbn [s_objs s_lists]. rewrite (assoc_set_assoc k k _ (s_objs s) (assoc_key _ _ _ Ho)), Nat.eqb_refl. cbn [of_option bind o_list]. rewrite assoc_app_new by apply fresh_key_not_In. reflexivity.
  - intros i o' ps' Ne [Ho' Hl']. unfold get_params, get_obj, get_list. cbn [s_objs s_lists]. rewrite (assoc_set_assoc k i _ (s_objs s) (assoc_key _ _ _ Ho)), (proj2 (Nat.eqb_neq i k) Ne), Ho'. cbn [of_option bind]. rewrite (assoc_app_l _ _ _ _ Hl'). reflexivity.
Qed.

Lemma has_edge : forall g st e, furnished g st -> In e (g_edges g) -> exists o ps, has st (cid (e_model (e_dat e))) o ps.
Proof. intros g st e F He. destruct (proj1 F e He) as (o & ps & H & _). exists o, ps. exact H. Qed.
Lemma component_has : forall g st c, furnished g st -> In c (components g) -> exists o ps, has st (cid c) o ps.
Proof.
  intros g st c F H. unfold components in H. apply in_app_or in H as [H|H]; apply in_map_iff in H as (x & <- & H).
  - destruct x as [n d]. destruct (proj2 F n (n_model d) (ex_intro _ d (conj H eq_refl))) as (o & ps & Hh & _). exists o, ps. exact Hh.
  - destruct (has_edge g st x F H) as (o & ps & Hh). exists o, ps. exact Hh.
Qed.
(* writing back what is there *)
Lemma assign_same : forall g st k v s', furnished g st -> get_params st k = Ok [v] -> assign_parameters st k [v] = Ok s' -> same_values g st s'.
Proof.
  intros g st k v s' F G A c Hc. unfold get_params, get_obj, get_list in G. destruct (assoc k (s_objs st)) as [o|] eqn:Eo; [|discriminate G]. cbn [of_option bind] in G. destruct (assoc (o_list o) (s_lists st)) as [l|] eqn:El; [|discriminate G]. injection G as ->.
  destruct (assign_reads st k o [v] [v] (conj Eo El)) as (s'' & A' & R1 & R2). rewrite A in A'. injection A' as <-.
  destruct (Nat.eq_dec (cid c) k) as [-> |Ne].
  - rewrite R1. symmetry. apply has_params with o. split; assumption.
  - destruct (component_has g st c F Hc) as (o' & ps & Hh). rewrite (R2 (cid c) o' ps Ne Hh). symmetry. exact (has_params _ _ _ _ Hh).
Qed.

Lemma edge_listing : forall g (P : edge -> Prop), wf g -> (forall e, P e -> In e (g_edges g)) -> exists l, lists P l.
Proof.
  intros g P W H. assert (N : NoDup (g_edges g)) by exact (NoDup_map_inv _ _ (wf_keys g W)).
  assert (G : forall es, NoDup es -> exists l, NoDup l /\ forall e, In e l <-> In e es /\ P e).
  { induction es as [|e es IH]; intros Nd.
    - exists []. split; [constructor|]. intros e. split; [intros []|intros [[] _]].
    - inversion Nd as [|? ? Ne Nd']; subst. destruct (IH Nd') as (l & Nl & Hl). destruct (classic (P e)) as [Pe|Pe].
      + exists (e :: l). split; [constructor; [|exact Nl]; rewrite Hl; tauto|]. intros e'. cbn [In]. rewrite Hl. split; [intros [<-|[Q1 Q2]]; tauto|tauto].
      + exists l. split; [exact Nl|]. intros e'. rewrite Hl. cbn [In]. split; [tauto|]. intros [[<-|Q1] Q2]; tauto. }
  destruct (G _ N) as (l & Nl & Hl). exists l. split; [exact Nl|]. intros e. rewrite Hl. split; [tauto|]. intros Pe. split; [exact (H e Pe)|exact Pe].
Qed.

Section Interferometer.
Variables (st : store) (p : grid) (g : graph) (e0 : edge) (sink : node).
Hypothesis I : interferometer st p g e0 sink.
Let k := cid (e_model (e_dat e0)).
Let dark := repeat C0 (n_samples p).
Lemma I_in : In e0 (g_edges g). Proof. exact (proj1 (if_shifter _ _ _ _ _ I)). Qed.
Lemma I_cls : ccls (e_model (e_dat e0)) = PhaseShifter. Proof. apply (proj2 (if_shifter _ _ _ _ _ I) e0 I_in). reflexivity. Qed.
Lemma I_only : forall e, In e (g_edges g) -> cid (e_model (e_dat e)) = cid (e_model (e_dat e0)) -> e = e0.
Proof. intros e He E. exact (distinct_edges g e e0 (if_distinct _ _ _ _ _ I) He I_in E). Qed.
Lemma I_models : phase_models g = [e_model (e_dat e0)]. Proof. exact (phase_models_sole g e0 (if_wf _ _ _ _ _ I) (if_shifter _ _ _ _ _ I)). Qed.
Lemma I_dark : length dark = n_samples p. Proof. apply repeat_length. Qed.

Lemma function_solution : forall x, exists val out sv, solves (shifted st p e0 x) tt g dark val out /\ propagate (shifted st p e0 x) g dark tt [] = (tt, sv, Ok tt) /\ records g sv val out /\
  forall mean, phase_function mean st p g sink (just k x) = Ok (mean (out sink)).
Proof.
  intros x. destruct (if_bins _ _ _ _ _ I) as (n0 & Hn & Sh).
  destruct (solution st p g dark n0 (if_wf _ _ _ _ _ I) (if_acyclic _ _ _ _ _ I) (if_typed _ _ _ _ _ I) (if_furnished _ _ _ _ _ I) (if_usable _ _ _ _ _ I) I_dark Hn e0 I_cls I_only (if_feed _ _ _ _ _ I) (if_open _ _ _ _ _ I) Sh x []) as (val & out & sv & Sol & E & Rc).
  exists val, out, sv. split; [exact Sol|]. split; [exact E|]. split; [exact Rc|]. intros mean. unfold phase_function. fold dark. unfold shifted in E. fold k in E. rewrite E. cbn [bind]. unfold measure.
  destruct Rc as (_ & Rc & _). rewrite (Rc sink (if_end _ _ _ _ _ I)). reflexivity.
Qed.
Lemma function_value : forall mean x val out, solves (shifted st p e0 x) tt g dark val out -> phase_function mean st p g sink (just k x) = Ok (mean (out sink)).
Proof.
  intros mean x val out Sol. destruct (proj2 (propagate_solution (shifted st p e0 x) g dark (if_wf _ _ _ _ _ I) tt [] (kind_steady _ g) (if_acyclic _ _ _ _ _ I)) val out Sol) as (sv & E & Rc).
  unfold phase_function. fold dark. unfold shifted in E. fold k in E. rewrite E. cbn [bind]. unfold measure. destruct Rc as (_ & Rc & _). rewrite (Rc sink (if_end _ _ _ _ _ I)). reflexivity.
Qed.
Lemma function_fringe : fringe (fun x => phase_function mean_value st p g sink (just k x)).
Proof.
  destruct (if_bins _ _ _ _ _ I) as (n0 & Hn & Sh).
  destruct (fringe_law st p g dark n0 (if_wf _ _ _ _ _ I) (if_acyclic _ _ _ _ _ I) (if_typed _ _ _ _ _ I) (if_furnished _ _ _ _ _ I) (if_usable _ _ _ _ _ I) I_dark Hn e0 I_in I_cls I_only (if_linear _ _ _ _ _ I) sink (if_end _ _ _ _ _ I) (if_reached _ _ _ _ _ I) (if_power _ _ _ _ _ I) (if_feed _ _ _ _ _ I) (if_open _ _ _ _ _ I) Sh) as (a & b & c & Pa & D & F).
  exists a, b, c. split; [exact Pa|]. split; [exact D|]. intros x. destruct (function_solution x) as (val & out & sv & Sol & _ & _ & E). rewrite E, (F x val out Sol). reflexivity.
Qed.
Lemma function_flat : confined g e0 -> exists a, forall x, phase_function mean_value st p g sink (just k x) = Ok a.
Proof.
  intros Cf. destruct (if_bins _ _ _ _ _ I) as (n0 & Hn & Sh). destruct (function_solution 0) as (v0 & o0 & sv0 & S0 & _ & _ & E0). exists (mean_value (o0 sink)). intros x. destruct (function_solution x) as (val & out & sv & Sol & _ & _ & E). rewrite E. f_equal.
  exact (flat_law st p g dark n0 (if_wf _ _ _ _ _ I) (if_acyclic _ _ _ _ _ I) (if_typed _ _ _ _ _ I) (if_furnished _ _ _ _ _ I) (if_usable _ _ _ _ _ I) I_dark Hn e0 I_in I_cls I_only (if_linear _ _ _ _ _ I) sink (if_end _ _ _ _ _ I) (if_reached _ _ _ _ _ I) (if_power _ _ _ _ _ I) Cf x 0 val out v0 o0 Sol S0).
Qed.
(* the light does not get from the phase shifter to the measured end *)
Lemma function_unreached : ~ path g (e_dst e0) sink -> exists a, forall x, phase_function mean_value st p g sink (just k x) = Ok a.
Proof.
  intros Np. destruct (if_bins _ _ _ _ _ I) as (n0 & Hn & Sh). destruct (function_solution 0) as (v0 & o0 & sv0 & S0 & _ & _ & E0). exists (mean_value (o0 sink)). intros x. destruct (function_solution x) as (val & out & sv & Sol & _ & _ & E). rewrite E. do 2 f_equal.
  destruct (reading st p g dark (if_wf _ _ _ _ _ I) (if_typed _ _ _ _ _ I) (if_furnished _ _ _ _ _ I) e0 sink (if_end _ _ _ _ _ I) (if_reached _ _ _ _ _ I) (if_power _ _ _ _ _ I)) as (e1 & H1 & H2 & _ & Rd).
  rewrite (Rd x val out Sol), (Rd 0 v0 o0 S0).
  apply (upstream st p g dark n0 (if_wf _ _ _ _ _ I) (if_acyclic _ _ _ _ _ I) (if_typed _ _ _ _ _ I) (if_furnished _ _ _ _ _ I) (if_usable _ _ _ _ _ I) I_dark Hn e0 I_cls I_only x 0 val out v0 o0 Sol S0 e1 H1).
  - intros ->. discriminate (eq_trans (eq_sym (if_power _ _ _ _ _ I e0 H1 H2)) I_cls).
  - intros B. apply Np. rewrite <- H2. exact (path_edge g e1 (e_dst e0) H1 B).
Qed.

(** ** The score *)
Lemma current_value : exists q, get_params st k = Ok [Num q] /\ current_phase st k = Ok (Num q, Q2R q).
Proof.
  destruct (proj1 (if_furnished _ _ _ _ _ I) e0 I_in) as (o & ps & Hh & Al). rewrite I_cls in Al. apply has_params in Hh. fold k in Hh.
  destruct (allowed_entry _ _ 0%nat Al (ex_intro _ _ eq_refl)) as (q & Eq & _). destruct Al as [Ln _]. destruct ps as [|v [|v' ps]]; try discriminate Ln. cbn [nth_error] in Eq. injection Eq as ->.
  exists q. split; [exact Hh|]. unfold current_phase. rewrite Hh. reflexivity.
Qed.
Lemma fringe_slope : forall a b c x, derivable_pt_lim (fun x => a + b * cos x + c * sin x) x (c * cos x - b * sin x).
Proof.
  intros a b c x. replace (c * cos x - b * sin x) with ((0 + b * - sin x) + c * cos x) by ring.
  apply (derivable_pt_lim_plus (fun x => a + b * cos x) (fun x => c * sin x)).
  - apply (derivable_pt_lim_plus (fun _ => a) (fun x => b * cos x)); [apply derivable_pt_lim_const|]. apply (derivable_pt_lim_scal cos b x). apply derivable_pt_lim_cos.
  - apply (derivable_pt_lim_scal sin c x). apply derivable_pt_lim_sin.
Qed.
Lemma slope_unique : forall f a b c x r, (forall y, f y = Ok (a + b * cos y + c * sin y)) -> (differentiates f x r <-> r = Ok (c * cos x - b * sin x)).
Proof.
  intros f a b c x r F. split.
  - intros [e E|h d E D]; [rewrite F in E; discriminate|]. f_equal. apply (uniqueness_limite (fun y => a + b * cos y + c * sin y) x); [|apply fringe_slope].
    assert (X : forall y, h y = a + b * cos y + c * sin y) by (intros y; specialize (E y); rewrite F in E; congruence). intros eps He. destruct (D eps He) as (dl & Hd). exists dl. intros t T1 T2. rewrite <- !X. exact (Hd t T1 T2).
  - intros ->. apply (diff_value f x (fun y => a + b * cos y + c * sin y)); [exact F|apply fringe_slope].
Qed.
Lemma quarter : forall a b c x, (a + b * cos (x + PI / 2) + c * sin (x + PI / 2)) - (a + b * cos (x - PI / 2) + c * sin (x - PI / 2)) = 2 * (c * cos x - b * sin x).
Proof. intros a b c x. rewrite cos_plus, sin_plus, cos_minus, sin_minus, cos_PI2, sin_PI2. ring. Qed.
Lemma score_exact : forall v ph before after st' r, current_phase st k = Ok (v, ph) ->
  phase_function mean_value st p g sink (just k (ph - PI / 2)) = Ok before -> phase_function mean_value st p g sink (just k (ph + PI / 2)) = Ok after ->
  (phase_sensitivity st p g sink st' r <-> assign_parameters st k [v] = Ok st' /\ r = Ok (- (Rabs (after - before) / 2))).
Proof.
  intros v ph before after st' r Cp Eb Ea. destruct function_fringe as (a & b & c & _ & _ & F). cbn beta in F. rewrite F in Eb, Ea. injection Eb as Eb. injection Ea as Ea.
  assert (Sc : Rabs (c * cos ph - b * sin ph) = Rabs (after - before) / 2).
  { rewrite <- Eb, <- Ea, quarter, Rabs_mult, (Rabs_right 2) by lra. field. }
  split.
  - intros H. destruct H as [N|c' e M E|c' v' ph' e st' M E D As|c' v' ph' d st' M E D As].
    + exfalso. apply N. rewrite I_models. reflexivity.
    + rewrite I_models in M. assert (Ec : c' = e_model (e_dat e0)) by congruence. subst c'. fold k in E. congruence.
    + rewrite I_models in M. assert (Ec : c' = e_model (e_dat e0)) by congruence. subst c'. fold k in E, D, As. apply (slope_unique _ a b c ph' _ F) in D. discriminate.
    + rewrite I_models in M. assert (Ec : c' = e_model (e_dat e0)) by congruence. subst c'. fold k in E, D, As. rewrite Cp in E. injection E as <- <-. split; [exact As|]. apply (slope_unique _ a b c ph _ F) in D. injection D as ->. rewrite Sc. reflexivity.
  - intros [As ->]. rewrite <- Sc. apply (ps_score st p g sink (e_model (e_dat e0)) v ph); [exact I_models|exact Cp| |exact As]. apply (slope_unique _ a b c ph _ F). reflexivity.
Qed.
Lemma score_exists : exists st' score, phase_sensitivity st p g sink st' (Ok score) /\ score <= 0 /\ same_values g st st'.
Proof.
  destruct current_value as (q & G & Cp). destruct function_fringe as (a & b & c & _ & _ & F). cbn beta in F.
  destruct (has_edge g st e0 (if_furnished _ _ _ _ _ I) I_in) as (o & ps & Hh). destruct (assign_reads st k o ps [Num q] Hh) as (st' & As & _).
  exists st', (- (Rabs (a + b * cos (Q2R q + PI / 2) + c * sin (Q2R q + PI / 2) - (a + b * cos (Q2R q - PI / 2) + c * sin (Q2R q - PI / 2))) / 2)). split.
  - apply (score_exact (Num q) (Q2R q) _ _ st' _ Cp (F _) (F _)). split; [exact As|reflexivity].
  - split; [|exact (assign_same g st k (Num q) st' (if_furnished _ _ _ _ _ I) G As)].
    match goal with |- - (Rabs ?u / 2) <= 0 => pose proof (Rabs_pos u) end. lra.
Qed.
Lemma flat_score : (exists a, forall x, phase_function mean_value st p g sink (just k x) = Ok a) -> forall st' r, phase_sensitivity st p g sink st' r -> r = Ok 0.
Proof.
  intros (a & F) st' r H. destruct current_value as (q & G & Cp). destruct (proj1 (score_exact (Num q) (Q2R q) a a st' r Cp (F _) (F _)) H) as [_ Er]. rewrite Er. f_equal. rewrite Rminus_eq_0, Rabs_R0. lra.
Qed.

(** ** Limits *)
Lemma current_run : forall q old, get_params st k = Ok [Num q] -> propagate (optics st p) g dark tt old = propagate (shifted st p e0 (Q2R q)) g dark tt old.
Proof.
  intros q old G. apply propagate_agree; [exact (if_wf _ _ _ _ _ I)|reflexivity|]. intros e s [] He. destruct (Nat.eq_dec (cid (e_model (e_dat e))) k) as [E|E].
  - apply I_only in E; [|exact He]. subst e. rewrite shifted_here. cbn [edge_act optics]. fold k. rewrite G. cbn [bind]. rewrite I_cls. reflexivity.
  - rewrite (shifted_other st p g e0 I_only); [reflexivity|exact He|]. intros ->. apply E. reflexivity.
Qed.
Lemma amount_mean : forall y, mean_value y = fold_right (fun z a => fst z + a) 0 y / INR (length y).
Proof. intros y. unfold mean_value. f_equal. induction y as [|z y IH]; [reflexivity|]. cbn [map fold_right]. rewrite IH. reflexivity. Qed.
Lemma function_limit : forall K starts val q, (contains g WaveShaper -> n_samples p <> 2%nat) -> (contains g ProgrammableFilter -> fine_grid (n_samples p) (window_t p)) ->
  get_params st k = Ok [Num q] -> route_bound g st K -> lists (starting g) starts -> (forall e, In e starts -> saved (fst (simulate st p g dark [])) (PEdge (e_src e, e_dst e, e_key e)) = Some (val e)) ->
  forall x r, phase_function mean_value st p g sink (just k x) = Ok r -> 0 <= r <= (K * total starts (fun e => strength (val e))) ^ 2 / INR (n_samples p).
Proof.
  intros K starts val q Sh2 Fi G Kb Ls Vs x r Hr. destruct (if_bins _ _ _ _ _ I) as (n0 & Hn & Sh).
  assert (W := if_wf _ _ _ _ _ I). assert (A := if_acyclic _ _ _ _ _ I). assert (T := if_typed _ _ _ _ _ I). assert (Fu := if_furnished _ _ _ _ _ I). assert (U := if_usable _ _ _ _ _ I).
  destruct (function_solution (Q2R q)) as (v0 & o0 & sv0 & S0 & P0 & R0 & _). destruct (function_solution x) as (v1 & o1 & sv1 & S1 & _ & _ & E1). rewrite E1 in Hr. injection Hr as <-.
  assert (Vq : forall e, In e starts -> v1 e = val e).
  { intros e He. assert (St : starting g e) by (apply (proj2 Ls); exact He). destruct St as [H1 H2].
    rewrite (source_values st p g dark n0 W A T Fu U I_dark Hn e0 I_in I_cls I_only x (Q2R q) v1 o1 v0 o0 S1 S0 e H1 H2).
    specialize (Vs e He). unfold simulate in Vs. rewrite (current_run q [] G), P0 in Vs. cbn [fst snd] in Vs. rewrite (proj1 R0 e H1) in Vs. congruence. }
  destruct (edge_listing g (ending g) W (fun e H => proj1 H)) as (ends & Le).
  destruct (run_bound st p g dark n0 W A T Fu U I_dark Hn Sh2 Fi (shifted st p e0 x) (shifted_phased st p g e0 I_cls I_only x) v1 o1 K starts ends S1 Kb Ls Le) as [Bd _].
  destruct (reading st p g dark W T Fu e0 sink (if_end _ _ _ _ _ I) (if_reached _ _ _ _ _ I) (if_power _ _ _ _ _ I)) as (e1 & H1 & H2 & Ni & Rd).
  assert (L1 : length (v1 e1) = n_samples p) by exact (run_lengths st p g dark n0 W A T Fu U I_dark Hn (shifted st p e0 x) (shifted_phased st p g e0 I_cls I_only x) v1 o1 S1 e1 H1).
  assert (En : In e1 ends) by (apply (proj2 Le); split; [exact H1|]; split; [exact Ni|rewrite H2; exact (if_end _ _ _ _ _ I)]).
  assert (D1 : detected e1 (v1 e1) <= total ends (fun e => detected e (v1 e))).
  { apply (total_term ends (fun e => detected e (v1 e)) e1 En). intros e _. unfold detected. destruct (ccls (e_model (e_dat e))); try lra; [apply sqrt_pos|apply strength_nonneg]. }
  rewrite (total_ext starts (fun e => strength (v1 e)) (fun e => strength (val e))) in Bd by (intros e He; rewrite (Vq e He); reflexivity).
  rewrite (Rd x v1 o1 S1), amount_mean, L1. assert (Dm : detected e1 (v1 e1) = sqrt (fold_right (fun z a => fst z + a) 0 (v1 e1))) by (unfold detected; rewrite (if_power _ _ _ _ _ I e1 H1 H2); reflexivity).
  assert (Np : 0 < INR (n_samples p)) by (apply lt_0_INR; destruct U; lia).
  assert (Sn : 0 <= fold_right (fun z a => fst z + a) 0 (v1 e1)).
  { destruct (link st p g dark n0 W A T Fu U I_dark Hn e0 I_cls I_only e1 H1) as (c & i & _ & _ & Kx). destruct (Kx x v1 o1 S1) as (_ & s & _ & _ & _ & Es).
    assert (Ne : e1 <> e0) by (intros ->; discriminate (eq_trans (eq_sym (if_power _ _ _ _ _ I e0 H1 H2)) I_cls)). rewrite (shifted_other st p g e0 I_only x e1 s H1 Ne) in Es.
    destruct (edge_values st p g n0 Fu e1 H1) as (o' & ps & _ & _ & Gp & _). cbn [edge_act optics snd] in Es. rewrite Gp in Es. cbn [bind] in Es. rewrite (if_power _ _ _ _ _ I e1 H1 H2) in Es. cbn [component] in Es. injection Es as <-.
    unfold measurement_device, power_. clear. induction s as [|z s IH]; cbn [map fold_right]; [lra|]. pose proof (Cnorm2_nonneg z). change (0 <= Cnorm2 z + fold_right (fun z a => fst z + a) 0 (map RtoC (map Cnorm2 s))). lra. }
  set (S := fold_right (fun z a => fst z + a) 0 (v1 e1)) in *. set (M := K * total starts (fun e => strength (val e))) in *.
  assert (Sm : S <= M ^ 2).
  { rewrite <- (sqrt_sqrt S Sn). pose proof (sqrt_pos S). assert (sqrt S <= M) by lra. cbn [pow]. rewrite Rmult_1_r. apply Rmult_le_compat; assumption. }
  apply Rinv_0_lt_compat in Np. split; [apply Rmult_le_pos; [exact Sn|left; exact Np]|]. apply Rmult_le_compat_r; [left; exact Np|exact Sm].
Qed.
Lemma score_limit : forall K starts val, (contains g WaveShaper -> n_samples p <> 2%nat) -> (contains g ProgrammableFilter -> fine_grid (n_samples p) (window_t p)) ->
  route_bound g st K -> lists (starting g) starts -> (forall e, In e starts -> saved (fst (simulate st p g dark [])) (PEdge (e_src e, e_dst e, e_key e)) = Some (val e)) ->
  forall st' r, phase_sensitivity st p g sink st' r -> exists score, r = Ok score /\ - ((K * total starts (fun e => strength (val e))) ^ 2 / INR (n_samples p) / 2) <= score <= 0.
Proof.
  intros K starts val Sh2 Fi Kb Ls Vs st' r H. destruct current_value as (q & G & Cp). pose proof (function_limit K starts val q Sh2 Fi G Kb Ls Vs) as L. destruct function_fringe as (a & b & c & _ & _ & F). cbn beta in F.
  destruct (proj1 (score_exact (Num q) (Q2R q) _ _ st' r Cp (F _) (F _)) H) as [_ Er]. eexists. split; [exact Er|].
  pose proof (L _ _ (F (Q2R q - PI / 2))) as [B1 B2]. pose proof (L _ _ (F (Q2R q + PI / 2))) as [B3 B4].
  match goal with |- _ <= - (Rabs ?u / 2) <= 0 => pose proof (Rabs_pos u); assert (Rabs u <= (K * total starts (fun e => strength (val e))) ^ 2 / INR (n_samples p)) by (apply Rabs_le; lra) end. lra.
Qed.
End Interferometer.
