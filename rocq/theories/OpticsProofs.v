(** When a simulation of a graph succeeds (C65). *)
From Coq Require Import Reals Qreals List Arith ZArith QArith Lia Lra Bool Permutation.
From Verif Require Import Base GraphModel GraphSpec GraphProofs TopoProofs OperatorsSpec OperatorsProofs EvolutionProofs EffectsProofs TypingProofs InitProofs ParamsModel ParamsSpec PropagateModel PropagateSpec PropagateProofs SessionSaveProofs FlowSpec FlowProofs
  Complex ArrayModel ComponentModel ComponentSpec DetectorModel MoreComponentsModel MoreComponentsSpec FilterProofs ComponentProofs GridProofs SplitterProofs ShaperProofs DetectorProofs MoreComponentsProofs OpticsModel OpticsSpec OpticsComponentProofs.
Import ListNotations.
Local Open Scope nat_scope.

(** ** Components that need signals of one kind *)
Section Kind.
Context {S : Type}.
Variable B : behaviour S unit.
Variable g : graph.
Variable src : S.
Hypothesis W : wf g.
Variable Q : S -> Prop.
Variable fine : edge -> Prop.
Variable width : node -> option nat.
Hypothesis src_ok : Q src.
Hypothesis edge_ok : forall e s, In e (g_edges g) -> Q s -> fine e -> exists s', edge_act B (e_model (e_dat e)) s tt = (tt, Ok s') /\ Q s'.
Hypothesis edge_bad : forall e s, In e (g_edges g) -> Q s -> ~ fine e -> exists er, edge_act B (e_model (e_dat e)) s tt = (tt, Err er).
Hypothesis fine_dec : forall e, In e (g_edges g) -> fine e \/ ~ fine e.
Hypothesis node_ok : forall n c ss, model_at g n c -> length ss = Nat.max 1 (arrivals g n) -> (forall s, In s ss -> Q s) ->
  match width n with
  | Some k => exists states, node_act B c ss (arrivals g n) (departures g n) tt = (tt, Ok states) /\ length states = k /\ forall s, In s states -> Q s
  | None => exists er, node_act B c ss (arrivals g n) (departures g n) tt = (tt, Err er)
  end.
Definition all_kind (sv : saves S) : Prop := forall p s, saved sv p = Some s -> Q s.

Lemma save_kind : forall p s sv, Q s -> all_kind sv -> all_kind (save p s sv).
Proof.
  intros p s sv Hs H q s' E. destruct (place_eqb q p) eqn:Eq.
  - apply place_eqb_eq in Eq. subst q. rewrite saved_same in E. injection E as <-. exact Hs.
  - rewrite saved_other in E; [exact (H q s' E)|]. intros ->. rewrite (proj2 (place_eqb_eq p p) eq_refl) in Eq. discriminate.
Qed.

Lemma send_kind : forall es i states sv, incl es (g_edges g) -> (forall s, In s states -> Q s) -> (forall e, In e es -> fine e) ->
  i + length es <= length states \/ es = [] -> all_kind sv -> exists sv', send B es i states tt sv = (tt, sv', Ok tt) /\ all_kind sv'.
Proof.
  induction es as [|e es IH]; intros i states sv Inc Hq Hf Hl Hk; [exists sv; auto|]. cbn [send]. destruct Hl as [Hl|Hl]; [|discriminate]. cbn [length] in Hl.
  destruct (nth_error states i) as [s|] eqn:Es; [|apply nth_error_None in Es; lia].
  destruct (edge_ok e s) as (s' & -> & Hs'); [apply Inc; left; reflexivity|apply Hq; exact (nth_error_In _ _ Es)|apply Hf; left; reflexivity|].
  apply IH; [intros a Ha; apply Inc; right; exact Ha|exact Hq|intros a Ha; apply Hf; right; exact Ha|left; lia|]. apply save_kind; assumption.
Qed.

Lemma received_kind : forall val n, (forall e, In e (g_edges g) -> e_dst e = n -> Q (val e)) -> forall s, In s (received g src val n) -> Q s.
Proof.
  intros val n H s Hs. unfold received in Hs. destruct (arriving g n) as [|e l] eqn:E; [destruct Hs as [<-|[]]; exact src_ok|].
  rewrite <- E in Hs. apply in_map_iff in Hs as (e' & <- & He'). apply (In_arriving g n e' W) in He' as [H1 H2]. apply H; assumption.
Qed.

Definition capable (n : node) : Prop := (exists k, width n = Some k /\ departures g n <= k /\ 1 <= k) /\ forall e, In e (g_edges g) -> e_src e = n -> fine e.

Lemma visit_kind : forall n sv, is_node g n -> capable n -> (forall e, In e (g_edges g) -> e_dst e = n -> saved sv (PEdge (e_id e)) <> None) -> all_kind sv ->
  exists sv', visit B g src n tt sv = (tt, sv', Ok tt) /\ all_kind sv'.
Proof.
  intros n sv Hn ((k & Ek & Hd & Hk1) & Hf) Hs Hk. unfold visit. rewrite (get_out_degree_dep g W n Hn), (out_edges_leaving g n W Hn), (inputs_spec g src W sv n Hs).
  destruct (node_data_ex g n Hn) as (nd & End). rewrite End.
  assert (M : model_at g n (n_model nd)) by (exists nd; split; [apply (node_data_iff g n nd W); exact End|reflexivity]).
  change (in_degree g n) with (arrivals g n). change (out_degree g n) with (departures g n).
  assert (Rq : forall s, In s (received g src (get src sv) n) -> Q s).
  { apply received_kind. intros e H1 H2. unfold get. specialize (Hs e H1 H2). destruct (saved sv (PEdge (e_id e))) as [s|] eqn:E; [exact (Hk _ _ E)|congruence]. }
  pose proof (node_ok n (n_model nd) (received g src (get src sv) n) M (received_length g src W _ n W) Rq) as K. rewrite Ek in K.
  destruct K as (states & -> & Ls & Qs).
  assert (Inc : incl (leaving g n) (g_edges g)) by (intros e He; apply In_leaving in He; tauto).
  assert (Fl : forall e, In e (leaving g n) -> fine e) by (intros e He; apply In_leaving in He as [H1 H2]; apply Hf; assumption).
  destruct (departures g n =? 0).
  - destruct states as [|s0 r]; [cbn [length] in Ls; lia|]. apply send_kind; [exact Inc|exact Qs|exact Fl|left; rewrite Ls, <- departures_leaving; simpl; lia|]. apply save_kind; [apply Qs; left; reflexivity|exact Hk].
  - apply send_kind; [exact Inc|exact Qs|exact Fl|left; rewrite Ls, <- departures_leaving; simpl; lia|exact Hk].
Qed.

Lemma visit_all_kind : forall r D sv, (forall n, In n r -> is_node g n) -> closed g D r -> (forall n, In n r -> capable n) ->
  (forall e, In e (g_edges g) -> In (e_src e) D -> saved sv (PEdge (e_id e)) <> None) -> all_kind sv ->
  exists sv', visit_all B g src r tt sv = (tt, sv', Ok tt) /\ all_kind sv'.
Proof.
  induction r as [|n r IH]; intros D sv Hn Cl Hc Hs Hk; cbn [visit_all]; [exists sv; auto|].
  assert (In1 : is_node g n) by (apply Hn; left; reflexivity).
  assert (Hp : forall e, In e (g_edges g) -> e_dst e = n -> saved sv (PEdge (e_id e)) <> None).
  { intros e H1 H2. apply Hs; [exact H1|]. specialize (Cl [] n r e eq_refl H1 H2). rewrite app_nil_r in Cl. exact Cl. }
  destruct (visit_kind n sv In1 (Hc n (or_introl eq_refl)) Hp Hk) as (sv1 & Ev & Hk1). rewrite Ev.
  apply (IH (D ++ [n])); [intros m Hm; apply Hn; right; exact Hm| |intros m Hm; apply Hc; right; exact Hm| |exact Hk1].
  - intros l1 m l2 e E H1 H2. rewrite <- app_assoc. simpl. apply (Cl (n :: l1) m l2 e); [rewrite E; reflexivity|exact H1|exact H2].
  - intros e H1 H2. apply in_app_or in H2 as [H2|[H2|[]]].
    + apply (visit_mono B g src n tt sv tt sv1 (Ok tt) Ev). apply Hs; assumption.
    + subst n. destruct (visit_saved B g src W (e_src e) tt sv tt sv1 In1 Ev) as [_ V]. apply V; [exact H1|reflexivity].
Qed.

Lemma kind_steady : steady B g tt.
Proof. split; intros; destruct (fst _); reflexivity. Qed.

Lemma solution_kind : forall val out, acyclic g -> solves B tt g src val out -> forall e, In e (g_edges g) -> Q (val e).
Proof.
  intros val out A Sol. destruct (toposort_some g W A) as (o & _ & V). destruct (valid_closed g W o V) as (_ & Mem & Cl).
  assert (G : forall r D, closed g D r -> (forall n, In n r -> is_node g n) -> (forall e, In e (g_edges g) -> In (e_src e) D -> Q (val e)) ->
     forall e, In e (g_edges g) -> In (e_src e) (D ++ r) -> Q (val e)).
  { induction r as [|n r IH]; intros D C Hn HD; [intros e H1 H2; rewrite app_nil_r in H2; apply HD; assumption|].
    intros e H1 H2. apply (IH (D ++ [n])); [| | |exact H1|rewrite <- app_assoc; exact H2].
    - intros l1 m l2 e' E H3 H4. rewrite <- app_assoc. simpl. apply (C (n :: l1) m l2 e'); [rewrite E; reflexivity|exact H3|exact H4].
    - intros m Hm; apply Hn; right; exact Hm.
    - clear e H1 H2. intros e H1 H2. apply in_app_or in H2 as [H2|[H2|[]]]; [apply HD; assumption|]. subst n.
      assert (In1 : is_node g (e_src e)) by (apply Hn; left; reflexivity). destruct (node_data_ex g _ In1) as (nd & End).
      assert (M : model_at g (e_src e) (n_model nd)) by (exists nd; split; [apply (node_data_iff g _ nd W); exact End|reflexivity]).
      destruct (Sol _ _ M) as (states & E1 & _ & E3).
      assert (Rq : forall s, In s (received g src val (e_src e)) -> Q s).
      { apply received_kind. intros e' H3 H4. apply HD; [exact H3|]. specialize (C [] (e_src e) r e' eq_refl H3 H4). rewrite app_nil_r in C. exact C. }
      pose proof (node_ok _ _ (received g src val (e_src e)) M (received_length g src W _ _ W) Rq) as K.
      destruct (width (e_src e)) as [k|]; [|destruct K as (er & K); rewrite K in E1; discriminate].
      destruct K as (st & K & _ & Qs). rewrite K in E1. injection E1 as <-.
      assert (Il : In e (leaving g (e_src e))) by (apply In_leaving; auto). apply In_nth_error in Il as (i & Hi). destruct (E3 i e Hi) as (s & Es & Ea).
      destruct (fine_dec e H1) as [F|F].
      + destruct (edge_ok e s H1 (Qs s (nth_error_In _ _ Es)) F) as (s' & Ee & Hq). rewrite Ee in Ea. injection Ea as <-. exact Hq.
      + destruct (edge_bad e s H1 (Qs s (nth_error_In _ _ Es)) F) as (er & Ee). rewrite Ee in Ea. discriminate. }
  intros e He. apply (G o [] Cl); [intros n Hn; apply Mem; exact Hn|intros e' _ []|exact He|]. apply Mem. apply (wf_ends g W e He).
Qed.

Hypothesis width_pos : forall n k, width n = Some k -> 1 <= k.
Lemma propagate_kind : forall old, acyclic g ->
  ((exists sv, propagate B g src tt old = (tt, sv, Ok tt)) <-> forall n, is_node g n -> capable n) /\
  (forall x sv, propagate B g src tt old = (x, sv, Ok tt) -> all_kind sv).
Proof.
  intros old A. destruct (toposort_some g W A) as (o & Eo & V). destruct (valid_closed g W o V) as (_ & Mem & Cl).
  assert (Suff : (forall n, is_node g n -> capable n) -> exists sv, propagate B g src tt old = (tt, sv, Ok tt) /\ all_kind sv).
  { intros H. unfold propagate. rewrite Eo. unfold propagate_along. apply (visit_all_kind o []); [intros n Hn; apply Mem; exact Hn|exact Cl|intros n Hn; apply H, Mem, Hn|intros e _ []|].
    intros p s E. rewrite saved_nil in E. discriminate. }
  assert (Nec : forall x sv, propagate B g src tt old = (x, sv, Ok tt) -> forall n, is_node g n -> capable n).
  { intros x sv H n Hn. destruct (proj1 (propagate_solution B g src W tt old kind_steady A) x sv H) as (-> & val & out & Sol & _).
    destruct (node_data_ex g n Hn) as (nd & End).
    assert (M : model_at g n (n_model nd)) by (exists nd; split; [apply (node_data_iff g n nd W); exact End|reflexivity]).
    destruct (Sol _ _ M) as (states & E1 & _ & E3).
    assert (Rq : forall s, In s (received g src val n) -> Q s) by (apply received_kind; intros e H1 _; exact (solution_kind val out A Sol e H1)).
    pose proof (node_ok _ _ (received g src val n) M (received_length g src W _ _ W) Rq) as K.
    destruct (width n) as [k|] eqn:Ew; [|destruct K as (er & K); rewrite K in E1; discriminate].
    destruct K as (st & K & Ls & Qs). rewrite K in E1. injection E1 as <-. split.
    - exists k. split; [exact Ew|]. split; [|exact (width_pos n k Ew)]. rewrite <- Ls, departures_leaving.
      destruct (le_lt_dec (length (leaving g n)) (length st)) as [L|L]; [exact L|]. exfalso. destruct (nth_error (leaving g n) (length st)) as [e|] eqn:E; [|apply nth_error_None in E; lia].
      destruct (E3 _ _ E) as (s & Es & _). assert (length st < length st); [|lia]. apply nth_error_Some. congruence.
    - intros e H1 H2. assert (Il : In e (leaving g n)) by (apply In_leaving; auto). apply In_nth_error in Il as (i & Hi). destruct (E3 i e Hi) as (s & Es & Ea).
      destruct (fine_dec e H1) as [F|F]; [exact F|]. destruct (edge_bad e s H1 (Qs s (nth_error_In _ _ Es)) F) as (er & Ee). rewrite Ee in Ea. discriminate. }
  split; [split|].
  - intros (sv & H). exact (Nec _ _ H).
  - intros H. destruct (Suff H) as (sv & E & _). exists sv; exact E.
  - intros x sv H. destruct (Suff (Nec _ _ H)) as (sv' & E & K). rewrite E in H. injection H as _ <-. exact K.
Qed.
End Kind.

(** ** The simulator *)
Lemma edge_comp : forall g e, wf g -> typed g -> In e (g_edges g) -> family_of (ccls (e_model (e_dat e))) <> MultiPath.
Proof.
  intros g e W T He. destruct (wf_ends g W e He) as [Ns Nd]. destruct (no_input_dec g (e_src e) Ns) as [I|I]; [rewrite (ty_edge_source g T e He I); discriminate|].
  destruct (no_output_dec g (e_dst e) Nd) as [O|O]; [rewrite (ty_edge_sink g T e He I O); discriminate|]. rewrite (ty_edge_inner g T e He I O); discriminate.
Qed.

Lemma ratios_fractions : forall n ps, ratios n ps -> reals ps = Ok (map number ps) /\ length (map number ps) = n - 1 /\ 1 <= n /\ forall x, In x (map number ps) -> fraction x.
Proof.
  intros n ps [Ln H]. split; [apply reals_nums; intros v Hv; destruct (H v Hv) as (q & -> & _); eauto|]. split; [rewrite map_length; lia|]. split; [lia|].
  intros x Hx. apply in_map_iff in Hx as (v & <- & Hv). destruct (H v Hv) as (q & -> & B1 & B2). cbn [number]. apply Qle_Rle in B1, B2. rewrite RMicromega.Q2R_0 in B1. rewrite RMicromega.Q2R_1 in B2. split; assumption.
Qed.

Lemma typed_class : forall g n c, wf g -> typed g -> model_at g n c ->
  (ccls c = TerminalSource /\ no_input g n /\ arrivals g n = 0) \/ (ccls c = TerminalSink /\ departures g n = 0) \/
  ((ccls c = VariablePowerSplitter \/ ccls c = FrequencySplitter) /\ 1 <= arrivals g n /\ 1 <= departures g n).
Proof.
  intros g n c W T M. assert (Hn : is_node g n) by (destruct M as (d & M & _); exists d; exact M).
  assert (Ar : arrivals g n = 0 <-> no_input g n).
  { unfold arrivals, no_input. split.
    - intros H. split; [exact Hn|]. intros e He Ed. assert (In e (filter (fun e => Nat.eqb (e_dst e) n) (g_edges g))) by (apply filter_In; split; [exact He|apply Nat.eqb_eq; exact Ed]).
      destruct (filter _ _); [contradiction|discriminate].
    - intros [_ H]. destruct (filter (fun e => Nat.eqb (e_dst e) n) (g_edges g)) as [|e l] eqn:E; [reflexivity|]. exfalso.
      assert (X : In e (filter (fun e => Nat.eqb (e_dst e) n) (g_edges g))) by (rewrite E; left; reflexivity). apply filter_In in X as [X1 X2]. apply Nat.eqb_eq in X2. exact (H e X1 X2). }
  destruct (no_input_dec g n Hn) as [I|I]; [left; split; [exact (ty_source g T n c I M)|split; [exact I|apply Ar; exact I]]|].
  destruct (no_output_dec g n Hn) as [O|O]; [right; left; split; [exact (ty_sink g T n c I O M)|apply (no_output_dep g n Hn); exact O]|].
  right; right. assert (Fm : family_of (ccls c) = MultiPath) by (apply (ty_inner g T n c); [split; auto|exact M]).
  split; [destruct (ccls c); try discriminate Fm; auto|]. split; [destruct (arrivals g n); [exfalso; apply I, Ar; reflexivity|lia]|].
  assert (departures g n <> 0); [|lia]. intros C. apply O, (no_output_dep g n Hn), C.
Qed.

(* B is the simulator, except that phase shifters may shift by any angle *)
Definition phased (st : store) (p : grid) (g : graph) (B : behaviour (list C) unit) : Prop :=
  (forall c ss i o, node_act B c ss i o tt = node_act (optics st p) c ss i o tt) /\
  (forall e s, In e (g_edges g) -> edge_act B (e_model (e_dat e)) s tt = edge_act (optics st p) (e_model (e_dat e)) s tt \/
     (ccls (e_model (e_dat e)) = PhaseShifter /\ exists phi, edge_act B (e_model (e_dat e)) s tt = (tt, phase_shifter phi p s))).
Lemma phased_optics : forall st p g, phased st p g (optics st p).
Proof. intros st p g. split; intros; [reflexivity|left; reflexivity]. Qed.

Section Simulation.
Variable st : store.
Variable p : grid.
Variable g : graph.
Variable src : list C.
Variable n0 : nat.
Hypothesis W : wf g.
Hypothesis A : acyclic g.
Hypothesis T : typed g.
Hypothesis Fu : furnished g st.
Hypothesis U : usable (n_samples p) (window_t p).
Hypothesis Ls : length src = n_samples p.
Hypothesis Hn : bin_spans (n_samples p) (window_t p) n0.
Variable B : behaviour (list C) unit.
Hypothesis Ph : phased st p g B.

Definition sound_edge (e : edge) : Prop := forall o ps, has st (cid (e_model (e_dat e))) o ps -> fine_setting (n_samples p) n0 (ccls (e_model (e_dat e))) ps.
Definition outputs_of (n : node) : option nat :=
  match node_data g n with
  | Some d => Some (Nat.max 1 (match ccls (n_model d) with TerminalSource | TerminalSink => arrivals g n | _ => departures g n end))
  | None => None
  end.

Lemma edge_values : forall e, In e (g_edges g) -> exists o ps, has st (cid (e_model (e_dat e))) o ps /\ allowed (ccls (e_model (e_dat e))) ps /\ get_params st (cid (e_model (e_dat e))) = Ok ps /\
  (sound_edge e <-> fine_setting (n_samples p) n0 (ccls (e_model (e_dat e))) ps).
Proof.
  intros e He. destruct (proj1 Fu e He) as (o & ps & H & Al). exists o, ps. split; [exact H|]. split; [exact Al|]. pose proof (has_params _ _ _ _ H) as G. split; [exact G|]. unfold sound_edge. split; [intros X; exact (X o ps H)|].
  intros X o' ps' H'. apply has_params in H'. rewrite G in H'. injection H' as <-. exact X.
Qed.

Lemma edge_works : forall e s, In e (g_edges g) -> length s = n_samples p -> sound_edge e -> exists s', edge_act B (e_model (e_dat e)) s tt = (tt, Ok s') /\ length s' = n_samples p.
Proof.
  intros e s He L F. destruct (edge_values e He) as (o & ps & _ & Al & G & Q). apply Q in F. destruct (proj2 Ph e s He) as [-> |(_ & phi & ->)].
  2: { rewrite (phase_shifter_exact phi p s U L). eexists. split; [reflexivity|]. rewrite map_length. exact L. }
  cbn [edge_act optics]. rewrite G. cbn [bind]. destruct (component_ok _ ps p s n0 Al (edge_comp g e W T He) U L Hn F) as (y & -> & Ly). exists y; auto.
Qed.
Lemma edge_fails : forall e s, In e (g_edges g) -> length s = n_samples p -> ~ sound_edge e -> exists er, edge_act B (e_model (e_dat e)) s tt = (tt, Err er).
Proof.
  intros e s He L F. destruct (edge_values e He) as (o & ps & _ & Al & G & Q). destruct (proj2 Ph e s He) as [-> |(Cp & _)].
  2: { exfalso. apply F. intros o' ps' _. rewrite Cp. split; discriminate. }
  cbn [edge_act optics]. rewrite G. cbn [bind]. rewrite (component_bad _ ps p s n0 Al (edge_comp g e W T He) U L Hn); [eexists; reflexivity|]. intros X. apply F, Q, X.
Qed.
Lemma node_works : forall n c ss, model_at g n c -> length ss = Nat.max 1 (arrivals g n) -> (forall s, In s ss -> length s = n_samples p) ->
  match outputs_of n with
  | Some k => exists states, node_act B c ss (arrivals g n) (departures g n) tt = (tt, Ok states) /\ length states = k /\ forall s, In s states -> length s = n_samples p
  | None => exists er, node_act B c ss (arrivals g n) (departures g n) tt = (tt, Err er)
  end.
Proof.
  intros n c ss M Lss Hs. unfold outputs_of. assert (M' := M). destruct M' as (d & Md & Ec). rewrite (proj2 (node_data_iff g n d W) Md). rewrite Ec.
  destruct (proj2 Fu n c M) as (o & ps & H & Pr). apply has_params in H. rewrite (proj1 Ph). cbn [node_act optics]. rewrite H. cbn [bind].
  destruct (typed_class g n c W T M) as [(Cc & _ & Ar)|[(Cc & Dp)|(Cc & Ar & Dp)]].
  - rewrite Cc. cbn [connector]. exists ss. auto.
  - rewrite Cc. cbn [connector]. exists ss. auto.
  - assert (Fm : family_of (ccls c) = MultiPath) by (destruct Cc as [-> | ->]; reflexivity). rewrite Fm in Pr. destruct (ratios_fractions _ _ Pr) as (Er & Lr & D1 & Rr).
    destruct Cc as [Cc|Cc]; rewrite Cc; cbn [connector]; rewrite Er; cbn [bind]; cbv beta iota.
    + destruct (splitter_ok (map number ps) (arrivals g n) (departures g n) ss (n_samples p) Lr D1 Ar) as (outs & -> & Lo & Ho & _); [rewrite Lss; apply Nat.max_r; exact Ar|exact Hs|]. exists outs. split; [reflexivity|]. split; [lia|exact Ho].
    + destruct (frequency_splitter_ok (map number ps) p ss U) as (outs & -> & Lo & Ho & _); [destruct ss; [cbn [length] in Lss; lia|discriminate]|exact Hs|]. exists outs. split; [reflexivity|]. split; [lia|]. intros s Hs'. apply Ho, Hs'.
Qed.
Lemma outputs_pos : forall n k, outputs_of n = Some k -> 1 <= k.
Proof. intros n k H. unfold outputs_of in H. destruct (node_data g n) as [d|]; [|discriminate]. match type of H with Some ?m = _ => assert (E : m = k) by congruence end. rewrite <- E. apply Nat.le_max_l. Qed.

Lemma sound_dec : forall e, In e (g_edges g) -> sound_edge e \/ ~ sound_edge e.
Proof. intros e He. destruct (edge_values e He) as (o & ps & _ & _ & _ & Q). destruct (fine_setting_dec (n_samples p) n0 (ccls (e_model (e_dat e))) ps); [left|right]; tauto. Qed.

Lemma capable_iff : (forall n, is_node g n -> capable g sound_edge outputs_of n) <->
  single_feed g /\ ~ blocked g st /\ (contains g WaveShaper -> shapeable (n_samples p) n0).
Proof.
  split.
  - intros H. assert (Se : forall e, In e (g_edges g) -> sound_edge e) by (intros e He; apply (H (e_src e)); [apply (wf_ends g W e He)|exact He|reflexivity]).
    split; [|split].
    + intros n Ni. destruct (H n (proj1 Ni)) as [(k & Ek & Hd & _) _]. unfold outputs_of in Ek. destruct (node_data g n) as [d|] eqn:Ed; [|discriminate]. match type of Ek with Some ?m = _ => assert (Ek' : m = k) by congruence end. rewrite <- Ek' in Hd. clear k Ek Ek'.
      assert (M : model_at g n (n_model d)) by (exists d; split; [apply (node_data_iff g n d W); exact Ed|reflexivity]). rewrite (ty_source g T n _ Ni M) in Hd.
      destruct (typed_class g n _ W T M) as [(_ & _ & Ar)|[(Cc & _)|(Cc & _)]]; [rewrite Ar in Hd; exact Hd| |]; rewrite (ty_source g T n _ Ni M) in Cc; [discriminate|destruct Cc; discriminate].
    + intros (e & o & ps & v & He & Ec & Hh & Ev & Z). destruct (Se e He o ps Hh) as [F _]. exact (F Ec v Ev Z).
    + intros (e & He & Ec). destruct (edge_values e He) as (o & ps & Hh & _). destruct (Se e He o ps Hh) as [_ F]. exact (F Ec).
  - intros (Sf & Nb & Sh) n Nn. split.
    + destruct (node_data_ex g n Nn) as (d & Ed). unfold outputs_of. rewrite Ed. eexists. split; [reflexivity|]. split; [|lia].
      assert (M : model_at g n (n_model d)) by (exists d; split; [apply (node_data_iff g n d W); exact Ed|reflexivity]).
      destruct (typed_class g n _ W T M) as [(Cc & Ni & Ar)|[(Cc & Dp)|(Cc & Ar & Dp)]].
      * rewrite Cc. pose proof (Sf n Ni). lia.
      * rewrite Dp. lia.
      * destruct Cc as [-> | ->]; lia.
    + intros e He _ o ps Hh. split.
      * intros Ec v Ev Z. apply Nb. exists e, o, ps, v. auto.
      * intros Ec. apply Sh. exists e. auto.
Qed.

Lemma run_exact : forall old,
  ((exists sv, propagate B g src tt old = (tt, sv, Ok tt)) <-> single_feed g /\ ~ blocked g st /\ (contains g WaveShaper -> shapeable (n_samples p) n0)) /\
  (forall x sv, propagate B g src tt old = (x, sv, Ok tt) -> forall pl s, saved sv pl = Some s -> length s = n_samples p).
Proof.
  intros old. rewrite <- capable_iff.
  exact (propagate_kind B g src W (fun s => length s = n_samples p) sound_edge outputs_of Ls edge_works edge_fails sound_dec node_works outputs_pos old A).
Qed.
Lemma run_lengths : forall val out, solves B tt g src val out -> forall e, In e (g_edges g) -> length (val e) = n_samples p.
Proof.
  intros val out Sol. exact (solution_kind B g src W (fun s => length s = n_samples p) sound_edge outputs_of Ls edge_works edge_fails sound_dec node_works val out A Sol).
Qed.
End Simulation.

Theorem simulate_exact : forall st p g src n0, wf g -> acyclic g -> typed g -> furnished g st -> usable (n_samples p) (window_t p) -> length src = n_samples p -> bin_spans (n_samples p) (window_t p) n0 -> forall old,
  (snd (simulate st p g src old) = Ok tt <-> single_feed g /\ ~ blocked g st /\ (contains g WaveShaper -> shapeable (n_samples p) n0)) /\
  (snd (simulate st p g src old) = Ok tt -> forall pl s, saved (fst (simulate st p g src old)) pl = Some s -> length s = n_samples p).
Proof.
  intros st p g src n0 W A T Fu U Ls Hn old. destruct (run_exact st p g src n0 W A T Fu U Ls Hn (optics st p) (phased_optics st p g) old) as [K1 K2].
  unfold simulate. split.
  - rewrite <- K1. destruct (propagate (optics st p) g src tt old) as [[x sv] r] eqn:E. destruct x. cbn [snd]. split.
    + intros ->. exists sv. reflexivity.
    + intros (sv' & H). injection H as _ ->. reflexivity.
  - destruct (propagate (optics st p) g src tt old) as [[x sv] r] eqn:E. cbn [fst snd]. intros ->. exact (K2 x sv eq_refl).
Qed.
