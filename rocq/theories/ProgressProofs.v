From Coq Require Import List Arith Bool ZArith QArith Lia Lqa Permutation.
From Verif Require Import Base GraphModel GraphSpec OperatorsModel OperatorsSpec ParamsModel ParamsSpec EvolverModel EvolverSpec EvolveSpec FloatModel HofModel
  PopulationModel PopulationSpec TopologyModel TopologySpec ProgressSpec GraphProofs TopoProofs OperatorsProofs EffectsProofs EvolutionProofs EvolverProofs MatrixProofs ChoiceProofs TypingProofs ParamsProofs EvolveProofs HofProofs PopulationProofs RouletteProofs
  PreferentialProofs TopologyProofs.
Import ListNotations.
Local Open Scope nat_scope.

(** ** Something to work on *)
Lemma node_by_label : forall g n, is_node g n <-> In n (map fst (g_nodes g)).
Proof.
  intros g n. unfold is_node. rewrite in_map_iff. split; [intros [d H]; exists (n, d); auto|]. intros ([m d] & <- & H). exists d. exact H.
Qed.
Lemma inner_degrees : forall g n, is_node g n -> (inner g n <-> in_degree g n <> 0 /\ out_degree g n <> 0).
Proof.
  intros g n Hn. unfold inner, no_input, no_output. rewrite in_degree_zero, out_degree_zero. tauto.
Qed.

Lemma src_inner : forall g e, wf g -> In e (g_edges g) -> in_degree g (e_src e) <> 0 -> inner g (e_src e).
Proof.
  intros g e W He Hi. apply inner_degrees; [apply (wf_ends g W e He)|]. split; [exact Hi|]. apply out_degree_pos. exists e. auto.
Qed.
Lemma dst_inner : forall g e, wf g -> In e (g_edges g) -> out_degree g (e_dst e) <> 0 -> inner g (e_dst e).
Proof.
  intros g e W He Hi. apply inner_degrees; [apply (wf_ends g W e He)|]. split; [|exact Hi]. apply in_degree_pos. exists e. auto.
Qed.

Lemma series_place : forall L g, wf g -> (applicable L g AddSeries <-> has_inner g).
Proof.
  intros L g W. unfold applicable, places. cbn [possible_locations]. unfold series_locations. split.
  - intro H. destruct (interfaces g) as [|l r] eqn:E; [congruence|]. assert (Hl : In l (interfaces g)) by (rewrite E; left; reflexivity).
    assert (exists n i, l = LIface n i) as (n & i & ->).
    { unfold interfaces in Hl. apply in_app_iff in Hl as [Hl|Hl]; apply in_map_iff in Hl as (e & <- & _); eauto. }
    apply In_interfaces in Hl as (e & He & _ & [[-> D]|[-> D]]); [| |exact W]; [exists (e_src e); apply src_inner|exists (e_dst e); apply dst_inner]; auto.
  - intros (n & Hn & Hi) E. assert (D : in_degree g n <> 0 /\ out_degree g n <> 0) by (apply inner_degrees; [exact Hn|split; auto]). destruct D as [D1 D2].
    pose proof D2 as D3. apply out_degree_pos in D3 as (e & He & <-).
    assert (X : In (LIface (e_src e) (e_id e)) (interfaces g)) by (apply In_interfaces; [exact W|]; exists e; auto). rewrite E in X. destruct X.
Qed.

Lemma step_inner : forall L g o g', wf g -> acyclic g -> evo_step L g o g' -> (has_inner g' <-> has_inner g).
Proof.
  intros L g o g' W A S. destruct (step_effect L g o g' W A S) as [W' E]. destruct (effect_terminals L g o g' W A W' E) as [Ti To].
  assert (Same : (forall n, is_node g' n <-> is_node g n) -> (has_inner g' <-> has_inner g)).
  { intro N. split; intros (n & H1 & H2 & H3); exists n; (split; [apply N; exact H1|]); rewrite Ti, To in *; auto. }
  destruct E as [e nid nn ne lft g' He HI Fr _ _ _ _ _ _ _ Gn Ge
    |a b ne o g' Na Nb Hab Oa Ob V I _ _ _ Gn Ge
    |e du dv He Di Do _ _ _ _ _ Hp
    |e n du dv save g' He Hn Di Do _ Eu _ Ev _ Hp Es Gn _ _
    |
    |n d c Ed _ Di Do _ _ _ _
    |e c He _ _ _ _ _].
  - split; intros _.
    + destruct lft; [exists (e_src e); apply src_inner|exists (e_dst e); apply dst_inner]; auto.
    + exists nid. split; [exists (fresh_ndata nn); rewrite Gn; apply in_app_iff; right; left; reflexivity|].
      rewrite Ti, To. split; intros [X _]; exact (Fr X).
  - apply Same. intro n. unfold is_node. rewrite Gn. tauto.
  - apply Same. intro n. unfold is_node, remove_edge. cbn. tauto.
  - split; intros _; [exists (e_src e); apply src_inner; auto|].
    exists (e_src e). pose proof (src_inner g e W He Di) as (N1 & N2 & N3). split; [|rewrite Ti, To; auto].
    apply node_by_label. rewrite Gn, set_assoc_fst. apply node_data_In in Eu.
    assert (Ne : e_src e <> e_dst e) by (apply (acyclic_no_loop g); assumption).
    apply in_map_iff. exists (e_src e, du). split; [reflexivity|]. apply filter_In. split; [exact Eu|]. cbn [fst]. apply Nat.eqb_neq in Ne. rewrite Ne. reflexivity.
  - tauto.
  - apply Same. intro m. rewrite !node_by_label. unfold set_node_data. cbn [g_nodes]. rewrite set_assoc_fst. tauto.
  - apply Same. intro m. unfold is_node, set_edge_data. cbn. tauto.
Qed.

Lemma run_inner : forall L g os g', evo_run L g os g' -> wf g -> acyclic g -> (has_inner g' <-> has_inner g).
Proof.
  intros L g os g' R. induction R as [g|g o g' os g'' S _ IH]; intros W A; [tauto|].
  destruct (step_effect L g o g' W A S) as [W' E]. pose proof (effect_acyclic L g o g' W A E) as A'.
  rewrite (IH W' A'). exact (step_inner L g o g' W A S).
Qed.

(** ** One call of the evolver *)
Lemma weight_nonneg : forall L ops g w, (forall o, 0 < w o)%Q -> (0 <= weight_sum L ops g w)%Q.
Proof.
  intros L ops g w Hw. induction ops as [|o ops IH]; cbn; [lra|]. unfold weight_sum in IH. specialize (Hw o). destruct (places L g o); lra.
Qed.
Lemma weight_pos : forall L ops g w o, (forall o, 0 < w o)%Q -> In o ops -> applicable L g o -> (0 < weight_sum L ops g w)%Q.
Proof.
  intros L ops g w o Hw Ho Ha. induction ops as [|a ops IH]; [destruct Ho|]. pose proof (weight_nonneg L ops g w Hw) as N. unfold weight_sum in *. cbn. destruct Ho as [->|Ho].
  - unfold applicable in Ha. specialize (Hw o). destruct (places L g o); [congruence|]. lra.
  - specialize (IH Ho). pose proof (Hw a). destruct (places L g a); lra.
Qed.
Lemma choices_pos : forall L ops g o, In o ops -> applicable L g o -> n_choices L ops g <> 0.
Proof.
  intros L ops g o Ho Ha. induction ops as [|a ops IH]; [destruct Ho|]. unfold n_choices in *. cbn. destruct Ho as [->|Ho]; [|specialize (IH Ho); lia].
  unfold applicable in Ha. destruct (places L g o); [congruence|]. cbn. lia.
Qed.

Lemma pick_open : forall L ops ev g s hs sh u, wf g -> acyclic g -> NoDup ops -> In AddSeries ops -> has_inner g -> open_minded ev -> (0 <= u)%Q -> (u < 1)%Q ->
  exists l o, In o ops /\ offers L g o l /\ pick L ops ev g s hs sh u = Ok (l, o).
Proof.
  intros L ops ev g s hs sh u W A ND Ha Hi Ho U0 U1. apply (series_place L g W) in Hi. destruct ev as [|w|w]; [| |destruct Ho].
  - destruct (proj2 (lookup_choice L ops g s hs sh W A ND (choices_pos L ops g AddSeries Ha Hi)) u U0 U1) as (o & l & X). exists l, o. exact X.
  - cbn in Ho. pose proof (weight_pos L ops g w AddSeries Ho Ha Hi) as P.
    assert (N : ~ (weight_sum L ops g w == 0)%Q) by lra.
    destruct (proj2 (op_choice L ops g s hs sh W A ND w N (fun o _ _ => Qlt_le_weak _ _ (Qlt_shift_div_l 0 (w o) _ P ltac:(setoid_replace (0 * weight_sum L ops g w)%Q with 0%Q by ring; apply Ho)))) u U0 U1) as (o & l & X1 & X2 & _ & X3).
    exists l, o. auto.
Qed.

Lemma prepare_open : forall ev gen, open_minded ev -> prepare ev gen = ev.
Proof. intros [|w|w] gen H; [reflexivity|reflexivity|destruct H]. Qed.

Lemma evolve_succeeds : forall L ops w c, lib_ok L -> NoDup ops -> In AddSeries ops -> sound w -> has_inner (w_graph w) -> open_minded (c_ev c) -> fair L ops w c ->
  exists w' o, do_call L ops w c = (w', Ok o) /\ In o ops /\ evo_step L (w_graph w) o (w_graph w') /\ sound w' /\ has_inner (w_graph w').
Proof.
  intros L ops w c LO OND Ha S Hi Ho F. destruct (do_call L ops w c) as [w' r] eqn:H. destruct (evolve_within L ops w c w' r LO OND S F H) as [S' [(o & -> & Io & St)|[_ Er]]].
  { exists w', o. split; [reflexivity|]. split; [exact Io|]. split; [exact St|]. split; [exact S'|]. destruct S as (W & A & _). apply (step_inner L _ o _ W A St). exact Hi. }
  exfalso. destruct S as (W & A & T & Rd & Wi). destruct F as (U0 & U1 & Sh & Dr). unfold do_call in H. rewrite evolve_pick in H. cbv zeta in H.
  destruct (pick_open L ops (prepare (c_ev c) (c_gen c)) (w_graph w) (w_store w) (w_hess w) (ch_shuffle (c_ch c)) (ch_u (c_ch c)) W A OND Ha Hi) as (l & o & Io & Of & E);
    [rewrite prepare_open; exact Ho|exact U0|exact U1|].
  specialize (Dr l o E). rewrite E in H. unfold offers, places in Of.
  destruct (possible_locations L o (w_graph w)) as [locs|] eqn:Pl; [|destruct Of].
  destruct (apply_op_total L o (w_graph w) l (ch_draws (c_ch c)) locs W Pl Of) as (g' & Ap). rewrite Ap in H.
  assert (St : evo_step L (w_graph w) o g') by (econstructor; eassumption).
  destruct (step_effect L _ o _ W A St) as [W' Ef]. pose proof (effect_acyclic L _ o _ W A Ef) as A'. pose proof (effect_typed L _ o _ LO W A W' Ef T) as T'.
  set (s1 := construct_drawn L o l (w_graph w) (ch_draws (c_ch c)) (w_store w)) in *.
  assert (G1 : forall i, used g' i -> good s1 i).
  { intros i Ui. eapply (constructed_good L o (w_graph w) l (ch_draws (c_ch c)) g'); try eassumption. intros j Uj; split; [apply Wi|apply Rd]; exact Uj. }
  destruct (update_good g' s1 W' A' T' G1) as (s2 & Eu & G2 & _). rewrite Eu in H.
  assert (R2 : all_readable g' s2) by (intros i Ui; apply G2; exact Ui).
  assert (B2 : all_within g' s2) by (intros i Ui; apply G2; exact Ui).
  destruct (extract_total g' s2 W' R2) as (x & Ex). rewrite Ex in H. cbn [bind] in H.
  rewrite (within_assertion g' s2 x W' B2 Ex) in H. injection H as _ <-. destruct Er; discriminate.
Qed.

(** ** Updates of the population *)
Section Run.
Variable L : library.
Variable ops : list op.
Variable ev : evolver.
Hypothesis LO : lib_ok L.
Hypothesis OND : NoDup ops.
Hypothesis Ser : In AddSeries ops.
Hypothesis Open : open_minded ev.
Notation ok := (workable L ops).

Lemma workable_sound : forall w, ok w -> sound w.
Proof. intros w [U _]. exact (proj1 (in_use_healthy L ops LO OND w U)). Qed.

Lemma workable_evolves : forall w gen ch, ok w -> fair L ops w (mkCall ev gen ch) -> exists w' o, evolve_graph L ops ev gen w ch = (w', Ok o) /\ ok w'.
Proof.
  intros w gen ch K F. destruct (evolve_succeeds L ops w (mkCall ev gen ch) LO OND Ser (workable_sound w K) (proj2 K) Open F) as (w' & o & E & _ & _ & _ & Hi).
  exists w', o. split; [exact E|]. split; [|exact Hi]. exact (in_use_evolve L ops ev gen w ch w' (Ok o) (proj1 K) F E).
Qed.
Lemma workable_dag : forall w, ok w -> is_dag (w_graph w) = true.
Proof. intros w K. destruct (workable_sound w K) as (W & A & _). unfold is_dag. destruct (toposort_some (w_graph w) W A) as (o & -> & _). reflexivity. Qed.
Lemma workable_reads : forall w, ok w -> exists x, extract (w_graph w) (w_store w) = Ok x.
Proof. intros w K. destruct (workable_sound w K) as (W & _ & _ & Rd & _). exact (extract_total _ _ W Rd). Qed.
Lemma workable_updates : forall w, ok w -> exists s, update_graph (w_graph w) (w_store w) = Ok s /\ ok (with_store w s).
Proof.
  intros w K. destruct (workable_sound w K) as (W & A & T & Rd & Wi). destruct (update_good (w_graph w) (w_store w) W A T) as (s & E & _); [intros i Ui; split; [apply Wi|apply Rd]; exact Ui|].
  exists s. split; [exact E|]. split; [exact (in_use_update L ops w s (proj1 K) E)|exact (proj2 K)].
Qed.

Definition all_ok (h : heap) : Prop := forall r w, nth_error h r = Some w -> ok w.
Lemma all_ok_alloc : forall h w, all_ok h -> ok w -> all_ok (h ++ [w]).
Proof.
  intros h w H K r v E. destruct (Nat.lt_ge_cases r (length h)); [rewrite nth_error_app1 in E by assumption; exact (H r v E)|].
  rewrite nth_error_app2 in E by assumption. destruct (r - length h) as [|[|]]; cbn in E; [injection E as <-; exact K|discriminate|discriminate].
Qed.

Section One.
Variable gen : option Q.

Lemma evolve_at_total : forall h r (ch : dice), all_ok h -> r < length h -> (forall w, ok w -> fair L ops w (mkCall ev gen (ch w))) ->
  exists h', evolve_at L ops ev gen h r ch = Ok h' /\ all_ok h' /\ length h' = length h.
Proof.
  intros h r ch H Hr F. destruct (nth_error h r) as [w|] eqn:E; [|apply nth_error_None in E; lia]. pose proof (H r w E) as K.
  destruct (workable_evolves w gen (ch w) K (F w K)) as (w' & o & Ev & K'). destruct (store_at_some h r w' Hr) as [h' S]. pose proof S as S0. apply store_at_ok in S0 as (S1 & S2 & S3).
  exists h'. split; [unfold evolve_at; rewrite (proj2 (deref_ok h r w) E); cbn [bind]; rewrite Ev, S; reflexivity|]. split; [|exact S1].
  intros q v Eq. destruct (Nat.eq_dec q r) as [->|N]; [rewrite S2 in Eq; injection Eq as <-; exact K'|]. rewrite S3 in Eq by exact N. exact (H q v Eq).
Qed.

Lemma child_total : forall h r (ch : dice), all_ok h -> r < length h -> (forall w, ok w -> fair L ops w (mkCall ev gen (ch w))) ->
  exists h' r', child_of L ops ev gen h r ch = Ok (h', r') /\ all_ok h' /\ length h <= length h' /\ r' < length h'.
Proof.
  intros h r ch H Hr F. destruct (nth_error h r) as [w|] eqn:E; [|apply nth_error_None in E; lia]. pose proof (H r w E) as K.
  destruct (evolve_at_total (h ++ [w]) (length h) ch) as (h2 & E2 & K2 & L2); [apply all_ok_alloc; assumption|rewrite app_length; cbn; lia|exact F|]. rewrite app_length in L2. cbn in L2.
  destruct (nth_error h2 (length h)) as [w'|] eqn:E'; [|apply nth_error_None in E'; lia].
  exists h2, (length h). split; [|split; [exact K2|lia]]. unfold child_of. rewrite (proj2 (deref_ok h r w) E). cbn [bind alloc]. rewrite E2. cbn [bind]. rewrite (proj2 (deref_ok h2 _ w') E'). cbn [bind].
  rewrite (workable_dag w' (K2 _ _ E')). reflexivity.
Qed.

Definition unscored (p : population) : Prop := forall x, In x p -> fst x = None.

Lemma breed_total : forall p (pick : nat -> res nat) chs, (forall i, exists j, pick i = Ok j /\ j < length p) -> (forall i w, ok w -> fair L ops w (mkCall ev gen (chs i w))) ->
  forall n h i, all_ok h -> holds_all h p -> exists h' kids, breed L ops ev gen n h p pick chs i = Ok (h', kids) /\ all_ok h' /\ length h <= length h' /\ length kids = n /\ unscored kids /\ holds_all h' kids.
Proof.
  intros p pick chs Pk F. induction n as [|n IH]; intros h i H Hd; cbn [breed].
  - exists h, []. split; [reflexivity|]. split; [exact H|]. split; [lia|]. split; [reflexivity|]. split; [intros x []|intros s r []].
  - destruct (Pk i) as (j & -> & Lj). cbn [bind]. destruct (nth_error p j) as [[s r]|] eqn:Ej; [|apply nth_error_None in Ej; lia]. cbn [of_option bind snd].
    destruct (child_total h r (chs i) H (Hd s r (nth_error_In _ _ Ej)) (F i)) as (h1 & r1 & E1 & K1 & L1 & R1). rewrite E1. cbn [bind fst snd].
    destruct (IH h1 (S i) K1) as (h2 & ks & E2 & K2 & L2 & N2 & U2 & D2); [intros s' r' Hx; specialize (Hd s' r' Hx); lia|]. rewrite E2. cbn [bind fst snd].
    exists h2, ((None, r1) :: ks). split; [reflexivity|]. split; [exact K2|]. split; [lia|]. split; [cbn; lia|]. split.
    + intros x [<-|Hx]; [reflexivity|exact (U2 x Hx)].
    + intros s' r' [Eq|Hx]; [injection Eq as <- <-; lia|exact (D2 s' r' Hx)].
Qed.

(* the random rule: returns, or is still in its while loop *)
Lemma until_total : forall r chs, (forall i w, ok w -> fair L ops w (mkCall ev gen (chs i w))) -> forall fuel h i, all_ok h -> r < length h ->
  (exists h', evolve_until L ops ev gen fuel h r chs i = Ok h' /\ all_ok h' /\ length h' = length h) \/ evolve_until L ops ev gen fuel h r chs i = Err OutOfFuel.
Proof.
  intros r chs F. induction fuel as [|fuel IH]; intros h i H Hr; cbn [evolve_until]; [right; reflexivity|].
  destruct (evolve_at_total h r (chs i) H Hr (F i)) as (h1 & -> & K1 & L1). cbn [bind]. destruct (nth_error h1 r) as [w|] eqn:E; [|apply nth_error_None in E; lia].
  rewrite (proj2 (deref_ok h1 r w) E). cbn [bind]. destruct (workable_reads w (K1 r w E)) as (x & ->). cbn [bind]. rewrite (workable_dag w (K1 r w E)). cbn [negb].
  destruct (x_params x); [|left; exists h1; auto]. destruct (IH h1 (S i) K1) as [(h' & A & B & C)|A]; [lia|left; exists h'; split; [exact A|split; [exact B|lia]]|right; exact A].
Qed.
Lemma each_total : forall fuel chs, (forall i j w, ok w -> fair L ops w (mkCall ev gen (chs i j w))) -> forall p h i, all_ok h -> holds_all h p ->
  (exists h', evolve_each L ops ev gen fuel h p chs i = Ok (h', map (fun x => (None, snd x)) p) /\ all_ok h' /\ length h' = length h) \/ evolve_each L ops ev gen fuel h p chs i = Err OutOfFuel.
Proof.
  intros fuel chs F. induction p as [|[s r] p IH]; intros h i H Hd; cbn [evolve_each]; [left; exists h; auto|].
  destruct (until_total r (chs i) (F i) fuel h 0 H (Hd s r (or_introl eq_refl))) as [(h1 & -> & K1 & L1)| ->]; [|right; reflexivity]. cbn [bind].
  destruct (IH h1 (S i) K1) as [(h2 & -> & K2 & L2)| ->]; [intros s' r' Hx; rewrite L1; apply (Hd s' r'); right; exact Hx| |right; reflexivity].
  left. exists h2. cbn [bind fst snd map]. split; [reflexivity|]. split; [exact K2|lia].
Qed.
End One.

(** ** A whole run *)
Variable sim : world -> world -> res Q.
Variable opt0 : world -> res (fl * world).
Variable opt : nat -> nat -> world -> res (fl * world).
Variable lucks : nat -> luck.
Variable cfg : config.
Notation good_score := (usable_score (cf_rule cfg)).
Hypothesis Fr : fair_run L ops ev lucks.
Hypothesis Sim : forall a b, exists d, sim a b = Ok d.
Hypothesis Opt : forall g i, optimiser L ops good_score (opt g i).
Hypothesis NP : cf_rule cfg <> RulePreferential.
Hypothesis N1 : cf_generations cfg <> 1.
Hypothesis Npop : 1 <= cf_population cfg.
Hypothesis Nhof : 1 <= cf_hof cfg.
Hypothesis El0 : (0 <= cf_elitism cfg * inject_Z (Z.of_nat (cf_population cfg)))%Q.
Hypothesis El1 : (cf_elitism cfg * inject_Z (Z.of_nat (cf_population cfg)) <= 1 # 2)%Q.

Definition alive (st : state) : Prop :=
  all_ok (st_heap st) /\ holds_all (st_heap st) (st_pop st) /\ length (st_pop st) = cf_population cfg /\
  (forall x, In x (st_pop st) -> exists s, fst x = Some s /\ good_score s) /\ length (st_hof st) = cf_hof cfg.

Lemma complete_total : forall f w, optimiser L ops good_score f -> ok w -> exists s w', optimise_complete f None w = Ok (s, w') /\ good_score s /\ ok w'.
Proof.
  intros f w O K. unfold optimise_complete. destruct (workable_updates w K) as (s & E & K'). rewrite E. cbn [bind]. exact (O (with_store w s) K').
Qed.
Lemma optimise_all_total : forall g p h i, all_ok h -> holds_all h p -> unscored p ->
  exists l, optimise_all opt g i h p = Ok l /\ length l = length p /\ forall s w, In (s, w) l -> good_score s /\ ok w.
Proof.
  intros g. induction p as [|[s r] p IH]; intros h i H Hd U; cbn [optimise_all]; [exists []; split; [reflexivity|]; split; [reflexivity|intros ? ? []]|].
  assert (Hr : r < length h) by (apply (Hd s r); left; reflexivity). destruct (nth_error h r) as [w|] eqn:E; [|apply nth_error_None in E; lia].
  rewrite (proj2 (deref_ok h r w) E). cbn [bind]. pose proof (U (s, r) (or_introl eq_refl)) as Us. cbn in Us. subst s.
  destruct (complete_total (opt g i) w (Opt g i) (H r w E)) as (s & w' & -> & Gs & K). cbn [bind].
  destruct (IH h (S i) H) as (l & -> & Ll & Al); [intros s' r' Hx; apply (Hd s' r'); right; exact Hx|intros x Hx; apply U; right; exact Hx|]. cbn [bind].
  exists ((s, w') :: l). split; [reflexivity|]. split; [cbn; lia|]. intros s' v [Eq|Hx]; [injection Eq as <- <-; auto|exact (Al s' v Hx)].
Qed.

Lemma similar_total : forall h w k, exists r, similar_index world sim (cf_threshold cfg) h w k = Ok r.
Proof.
  induction h as [|[[s v]|] h IH]; intros w k; cbn [similar_index]; [eauto| |apply IH]. destruct (Sim w v) as [d ->]. destruct (too_similar (cf_threshold cfg) d); eauto.
Qed.
Lemma hof_total : forall l h, exists h', update_hof world sim (cf_threshold cfg) h l = Ok h' /\ length h' = length h.
Proof.
  induction l as [|[s w] l IH]; intro h; cbn [update_hof]; [exists h; auto|].
  assert (X : exists h1, update_one world sim (cf_threshold cfg) h (s, w) = Ok h1).
  { unfold update_one. destruct (insert_index world h s 0) as [j|]; [|eauto]. destruct (similar_total h w 0) as [[k|] ->]; [destruct (k <? j)|]; eauto. }
  destruct X as [h1 E]. rewrite E. apply update_one_cases in E. apply step_length in E. destruct (IH h1) as (h2 & E2 & L2). exists h2. split; [exact E2|lia].
Qed.

Lemma finite_pop : forall p : population, (forall x, In x p -> exists s, fst x = Some s /\ usable_score RuleRoulette s) -> exists qs, finite_scores p qs /\ length qs = length p /\ forall q, In q qs -> (0 < q)%Q.
Proof.
  induction p as [|[s r] p IH]; intro H; [exists []; split; [reflexivity|]; split; [reflexivity|intros q []]|].
  destruct IH as (qs & F & Ln & P); [intros x Hx; apply H; right; exact Hx|]. destruct (H (s, r) (or_introl eq_refl)) as (s' & E & q & -> & Pq). cbn in E. subst s.
  exists (q :: qs). split; [unfold finite_scores in *; cbn; f_equal; exact F|]. split; [cbn; lia|]. intros q' [<-|Hq]; auto.
Qed.

Lemma update_total : forall g gen st, alive st ->
  (exists h' p', update_population L ops ev lucks cfg g gen (st_heap st) (st_pop st) = Ok (h', p') /\ all_ok h' /\ holds_all h' p' /\ unscored p' /\ length p' = cf_population cfg) \/
  (cf_rule cfg = RuleRandom /\ update_population L ops ev lucks cfg g gen (st_heap st) (st_pop st) = Err OutOfFuel).
Proof.
  intros g gen st (H & Hd & Lp & Sc & _). unfold update_population. destruct (Fr g) as [Fd Fu].
  assert (NE : slice_to (pass_index (cf_elitism cfg) (st_pop st)) (st_pop st) = []) by (apply no_elite; rewrite Lp; assumption).
  assert (Bk : forall (pick : nat -> res nat), (forall i, exists j, pick i = Ok j /\ j < length (st_pop st)) ->
    exists h' kids, breed L ops ev (Some gen) (length (st_pop st)) (st_heap st) (st_pop st) pick (fun i => lk_ch (lucks g) i 0) 0 = Ok (h', kids) /\ all_ok h' /\ holds_all h' kids /\ unscored kids /\ length kids = cf_population cfg).
  { intros pick Pk. destruct (breed_total (Some gen) (st_pop st) pick (fun i => lk_ch (lucks g) i 0) Pk (fun i w K => Fd i 0 w gen K) (length (st_pop st)) (st_heap st) 0 H Hd) as (h' & kids & E & A & _ & B & C & D).
    exists h', kids. split; [exact E|]. split; [exact A|]. split; [exact D|]. split; [exact C|lia]. }
  destruct (cf_rule cfg) eqn:Ru; [|contradiction| |].
  - unfold update_random. rewrite NE. cbn [copy_all bind fst snd].
    destruct (each_total (Some gen) (lk_fuel (lucks g)) (lk_ch (lucks g)) (fun i j w K => Fd i j w gen K) (st_pop st) (st_heap st) 0 H Hd) as [(h' & E & A & Ln)|E]; rewrite E; cbn [bind fst snd]; [left|right; auto].
    eexists h', _. split; [reflexivity|]. rewrite app_nil_r. split; [exact A|]. split; [|split; [|rewrite map_length; exact Lp]].
    + intros s r Hx. apply in_map_iff in Hx as ([s' r'] & Eq & Hx). injection Eq as <- <-. rewrite Ln. exact (Hd s' r' Hx).
    + intros x Hx. apply in_map_iff in Hx as (y & <- & _). reflexivity.
  - left. unfold update_roulette. destruct (finite_pop (st_pop st) Sc) as (qs & F & Lq & P).
    destruct (wheel_weights (st_pop st) qs F) as (E & Pos & T); [intros ->; cbn in Lq; lia|left; exact P|]. rewrite E. cbn [bind].
    match type of E with _ = Ok ?ps => destruct (Bk (fun i => of_option IndexError (choose ps (lk_u (lucks g) i)))) as (h' & kids & E2 & A & B & C & D) end.
    { intro i. destruct (Fu i) as [U0 U1]. match goal with |- context[choose ?ps ?u] => destruct (choose_total ps u U0) as [j Ej]; [rewrite T; exact U1|]; rewrite Ej; exists j; split; [reflexivity|]; apply choose_nth in Ej end.
      rewrite !map_length in Ej. lia. }
    rewrite E2. cbn [bind fst snd]. rewrite NE, app_nil_r. exists h', kids. auto.
  - left. unfold update_tournament. destruct (st_pop st) as [|x0 p0] eqn:Ep; [cbn in Lp; lia|]. cbn [Nat.eqb]. rewrite <- Ep in *.
    destruct (Bk (fun i => list_min (contestants (length (st_pop st)) (tournament_size (length (st_pop st)) 3) (lk_rnd (lucks g) i)))) as (h' & kids & E2 & A & B & C & D).
    { intro i. destruct (contestants (length (st_pop st)) (tournament_size (length (st_pop st)) 3) (lk_rnd (lucks g) i)) as [|c cs] eqn:Ec.
      - apply (f_equal (@length nat)) in Ec. rewrite contestants_length in Ec. cbn in Ec. destruct (tournament_size_range (length (st_pop st)) 3); lia.
      - cbn [list_min]. eexists. split; [reflexivity|]. destruct (list_min_ok (c :: cs) _ eq_refl) as [Hin _]. rewrite <- Ec in Hin. apply contestants_below in Hin; [exact Hin|lia]. }
    rewrite E2. cbn [bind fst snd]. rewrite NE, app_nil_r. exists h', kids. auto.
Qed.

Lemma generation_total : forall g st, alive st ->
  (exists st', one_generation L ops ev sim opt lucks cfg g st = Ok st' /\ alive st' /\ exists done kept, st_evaluated st' = st_evaluated st ++ [done] /\ st_saved st' = st_saved st ++ [kept] /\ length done = cf_population cfg /\ length kept = cf_population cfg) \/
  (cf_rule cfg = RuleRandom /\ one_generation L ops ev sim opt lucks cfg g st = Err OutOfFuel).
Proof.
  intros g st A. unfold one_generation. destruct (Nat.eqb_spec (cf_generations cfg) 1) as [|_]; [contradiction|]. cbv zeta.
  destruct (update_total g (inject_Z (Z.of_nat g) / inject_Z (Z.of_nat (cf_generations cfg) - 1))%Q st A) as [(h & p & -> & K & Hd & U & Lp)|[Ru ->]]; [|right; auto]. cbn [bind fst snd].
  destruct (optimise_all_total g p h 0 K Hd U) as (done & -> & Ld & Al). cbn [bind].
  destruct (hof_total done (st_hof st)) as (hf & -> & Lh). cbn [bind]. destruct A as (_ & _ & _ & _ & Lf). rewrite Lf in Lh. destruct hf as [|top rest]; [cbn in Lh; lia|].
  set (kept := firstn (cf_population cfg) (sort_by_score done)).
  assert (Lk : length kept = cf_population cfg). { unfold kept. rewrite firstn_length, (Permutation_length (sort_perm done)). lia. }
  assert (Ak : forall s w, In (s, w) kept -> good_score s /\ ok w).
  { intros s w Hi. apply Al. apply (Permutation_in _ (sort_perm done)). rewrite <- (firstn_skipn (cf_population cfg) (sort_by_score done)). apply in_app_iff. left. exact Hi. }
  left. assert (Ek : exists k0 kr, kept = k0 :: kr) by (destruct kept; [cbn in Lk; lia|eauto]). destruct Ek as (k0 & kr & Ek). rewrite Ek. rewrite <- Ek.
  destruct (place_all_facts kept) as (P1 & P2 & P3 & _ & P5). destruct (place_all kept) as [h2 p2] eqn:Pl. cbn [fst snd] in *.
  eexists. split; [reflexivity|]. split.
  - unfold alive. cbn [st_heap st_pop st_hof]. split; [|split; [exact P3|split; [lia|split; [|exact Lh]]]].
    + intros r w E. assert (Hh : h2 = map snd kept) by (injection Pl as <- _; reflexivity). rewrite Hh in E. apply nth_error_In in E. apply in_map_iff in E as ([s v] & <- & Hi). exact (proj2 (Ak s v Hi)).
    + intros x Hx. destruct (P5 x Hx) as (s & w & N & E & _). exists s. split; [exact E|]. exact (proj1 (Ak s w (nth_error_In _ _ N))).
  - cbn [st_evaluated st_saved]. exists done, kept. split; [reflexivity|]. split; [reflexivity|]. split; [lia|exact Lk].
Qed.

Definition full (ll : list (list (fl * world))) : Prop := forall l, In l ll -> length l = cf_population cfg.
Lemma generations_total : forall n g st, alive st -> full (st_evaluated st) -> full (st_saved st) ->
  (exists st', generations L ops ev sim opt lucks cfg n g st = Ok st' /\ full (st_evaluated st') /\ full (st_saved st')) \/
  (cf_rule cfg = RuleRandom /\ generations L ops ev sim opt lucks cfg n g st = Err OutOfFuel).
Proof.
  induction n as [|n IH]; intros g st A F1 F2; cbn [generations]; [left; exists st; auto|].
  destruct (generation_total g st A) as [(st' & -> & A' & done & kept & E1 & E2 & L1 & L2)|[Ru ->]]; [|right; auto]. cbn [bind]. apply IH; [exact A'| |].
  - rewrite E1. intros l Hl. apply in_app_iff in Hl as [Hl|[<-|[]]]; auto.
  - rewrite E2. intros l Hl. apply in_app_iff in Hl as [Hl|[<-|[]]]; auto.
Qed.

Lemma run_total : forall w, optimiser L ops good_score opt0 -> ok w ->
  (exists st, topology_optimization L ops ev sim opt0 opt lucks cfg w = Ok st /\ full (st_evaluated st) /\ full (st_saved st)) \/
  (cf_rule cfg = RuleRandom /\ topology_optimization L ops ev sim opt0 opt lucks cfg w = Err OutOfFuel).
Proof.
  intros w O K. unfold topology_optimization, start_state. destruct (complete_total opt0 w O K) as (s & w1 & -> & Gs & K1). cbn [bind].
  destruct (place_all_facts (repeat (s, w1) (cf_population cfg))) as (P1 & P2 & P3 & _ & P5). destruct (place_all (repeat (s, w1) (cf_population cfg))) as [h p] eqn:Pl. cbn [fst snd bind] in *.
  apply generations_total; cbn [st_evaluated st_saved]; [|intros ? []|intros ? []]. unfold alive. cbn [st_heap st_pop st_hof]. rewrite repeat_length in P1.
  split; [|split; [exact P3|split; [exact P1|split; [|apply repeat_length]]]].
  - intros r v E. assert (Hh : h = map snd (repeat (s, w1) (cf_population cfg))) by (injection Pl as <- _; reflexivity). rewrite Hh in E. apply nth_error_In in E. apply in_map_iff in E as ([s' v'] & <- & Hi). apply repeat_spec in Hi. injection Hi as -> ->. exact K1.
  - intros x Hx. destruct (P5 x Hx) as (s' & v & N & E & _). exists s'. split; [exact E|]. apply nth_error_In, repeat_spec in N. injection N as -> ->. exact Gs.
Qed.
End Run.

(** ** Graphs without an inner node *)
Lemma only_swap : forall L g o, wf g -> acyclic g -> ~ has_inner g -> applicable L g o -> o = Swap.
Proof.
  intros L g o W A N H. destruct o; [| | |reflexivity]; exfalso; apply N.
  - apply (series_place L g W). exact H.
  - unfold applicable, places in H. destruct (possible_locations L AddParallel g) as [locs|] eqn:E; [|congruence]. cbn in E. destruct locs as [|l r]; [congruence|].
    destruct (In_parallel g _ l W E (or_introl eq_refl)) as (a & b & _ & Na & _ & Oa & _). exists a. apply inner_degrees; [exact Na|].
    unfold parallel_node_ok in Oa. apply andb_true_iff in Oa as [Oa _]. apply andb_true_iff in Oa as [Oa _]. apply andb_true_iff in Oa as [O1 O2].
    apply negb_true_iff, Nat.eqb_neq in O1. apply negb_true_iff, Nat.eqb_neq in O2. auto.
  - unfold applicable, places in H. cbn [possible_locations] in H. destruct (remove_locations g) as [|l r] eqn:E; [congruence|].
    destruct (In_remove_locations g l W) as (n & e & du & dv & _ & He & _ & D1 & _); [rewrite E; left; reflexivity|]. exists (e_src e). apply src_inner; assumption.
Qed.

(** ** Random numbers as promised exist *)
Section House.
Variable L : library.
Hypothesis LO : lib_ok L.
Hypothesis HE : edge_models L <> [].
Hypothesis HN : node_models L <> [].

Definition house_class (g : graph) (l : location) : cls :=
  match l with
  | LNode n => match node_cls g n with Some c => hd DelayLine (swap_set (node_models L) c) | None => DelayLine end
  | LEdge i => match find_edge g i with Some e => hd DelayLine (swap_set (edge_swap_models L g (e_src e) (e_dst e)) (ccls (e_model (e_dat e)))) | None => DelayLine end
  | _ => DelayLine
  end.
Definition house_draws (g : graph) (l : location) : draws :=
  let f := fresh_nat (used_ids g) in
  mkDraws (mkComp f (hd DelayLine (edge_models L)) false) (mkComp (S f) (hd DelayLine (node_models L)) false) (mkComp f (house_class g l) false) (fresh_nat (node_ids g)).

Lemma hd_in : forall (l : list cls) d, l <> [] -> In (hd d l) l.
Proof. intros [|a l] d H; [congruence|left; reflexivity]. Qed.
Lemma fresh_next : forall l, ~ In (S (fresh_nat l)) l.
Proof.
  intros l H. assert (B : forall (ls : list nat) x, In x ls -> x <= fold_right Nat.max 0 ls).
  { clear; intros ls; induction ls as [|y r IH]; simpl; [tauto|]. intros x [->|Hx]; [lia|]. specialize (IH x Hx); lia. }
  apply B in H. unfold fresh_nat in H. lia.
Qed.

Lemma house_ok : forall o g l, wf g -> offers L g o l -> draws_ok L o g l (house_draws g l).
Proof.
  intros o g l W Hl. unfold offers, places in Hl. destruct (possible_locations L o g) as [locs|] eqn:E; [|destruct Hl].
  pose proof (fresh_nat_not_In (used_ids g)) as F1. pose proof (fresh_next (used_ids g)) as F2. pose proof (fresh_nat_not_In (node_ids g)) as F3.
  pose proof (hd_in (edge_models L) DelayLine HE) as H1. pose proof (hd_in (node_models L) DelayLine HN) as H2. unfold house_draws. destruct o; cbn [draws_ok d_edge d_node d_swap d_id ccls cprot cid].
  - repeat (split; [assumption||reflexivity||lia|]). exact F3.
  - repeat (split; [assumption||reflexivity|]). exact F1.
  - exact I.
  - injection E as <-. destruct (In_swap_locations L g l W Hl) as [(n & nd & -> & D & _)|(e & -> & He & _)]; cbn [draws_ok house_class d_swap ccls cprot cid].
    + split; [|split; [reflexivity|exact F1]]. intros c Ec Ne. rewrite Ec. apply hd_in. exact Ne.
    + split; [|split; [reflexivity|exact F1]]. intros e0 E0 Ne. rewrite E0. apply hd_in. exact Ne.
Qed.

Definition house (ops : list op) (ev : evolver) (u : Q) (id : nat) : dice := fun w =>
  mkCh u (fun l => l)
    (match pick L ops ev (w_graph w) (w_store w) (w_hess w) (fun l => l) u with Ok (l, _) => house_draws (w_graph w) l | Err _ => house_draws (w_graph w) (LNode 0) end) id.
Definition house_luck (ops : list op) (ev : evolver) (u : Q) (g : nat) : luck :=
  mkLuck 1 (fun i j => house ops ev u (g + i + j)) (fun _ _ => true) (fun _ => u) (fun _ i => i).

Lemma house_fair : forall ops ev u, NoDup ops -> In AddSeries ops -> open_minded ev -> (0 <= u)%Q -> (u < 1)%Q -> fair_run L ops ev (house_luck ops ev u).
Proof.
  intros ops ev u ND Hs Ho U0 U1 g. split; [|intro i; split; assumption]. intros i j w gen [Iu Hi]. unfold fair. cbn [c_ch c_ev c_gen house_luck lk_ch house ch_u ch_shuffle ch_draws].
  split; [exact U0|]. split; [exact U1|]. split; [intro l; apply Permutation_refl|]. rewrite (prepare_open ev (Some gen) Ho). intros l o E. rewrite E.
  pose proof (in_use_healthy L ops LO ND w Iu) as ((W & A & _) & _). apply house_ok; [exact W|].
  destruct (pick_open L ops ev (w_graph w) (w_store w) (w_hess w) (fun l => l) u W A ND Hs Hi Ho U0 U1) as (l' & o' & _ & Of & E'). rewrite E in E'. injection E' as <- <-. exact Of.
Qed.
End House.
