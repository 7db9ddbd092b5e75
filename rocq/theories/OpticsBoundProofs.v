(** How strong the fields of a simulated graph can be (C66). *)
From Coq Require Import Reals Qreals List Arith ZArith QArith Lia Lra Bool Permutation.
From Verif Require Import Base GraphModel GraphSpec GraphProofs TopoProofs OperatorsSpec OperatorsProofs EvolutionProofs EffectsProofs TypingProofs InitProofs ParamsModel ParamsSpec PropagateModel PropagateSpec PropagateProofs SessionSaveProofs FlowSpec FlowProofs
  Complex ArrayModel ComponentModel ComponentSpec DetectorModel MoreComponentsModel MoreComponentsSpec FilterProofs ComponentProofs GridProofs SplitterProofs ShaperProofs DetectorProofs MoreComponentsProofs OpticsModel OpticsSpec OpticsComponentProofs OpticsProofs StrengthProofs NetworkProofs.
Import ListNotations.
Local Open Scope R_scope.

(* finite choice over the connections of a graph *)
Lemma edge_choice : forall {S} (d : S) (P : edge -> S -> Prop) es, NoDup (map e_id es) -> (forall e, In e es -> exists s, P e s) -> exists f, forall e, In e es -> P e (f e).
Proof.
  intros S d P. induction es as [|e es IH]; intros Nd H; [exists (fun _ => d); intros e []|]. cbn [map] in Nd. apply NoDup_cons_iff in Nd as [Ne Nd].
  destruct (IH Nd) as (f & Hf); [intros e' He'; apply H; right; exact He'|]. destruct (H e (or_introl eq_refl)) as (s & Hs).
  exists (fun e' => if eid_eqb (e_id e') (e_id e) then s else f e'). intros e' [<-|He'].
  - rewrite (proj2 (eid_eqb_eq _ _) eq_refl). exact Hs.
  - destruct (eid_eqb (e_id e') (e_id e)) eqn:X; [|apply Hf; exact He']. exfalso. apply eid_eqb_eq in X. apply Ne. rewrite <- X. apply in_map; exact He'.
Qed.

Lemma strengths_app : forall xs ys, strengths (xs ++ ys) = strengths xs + strengths ys.
Proof. intros xs ys. unfold strengths. induction xs as [|x xs IH]; cbn [app fold_right]; [lra|]. rewrite IH. ring. Qed.
Lemma strengths_nonneg : forall xs, 0 <= strengths xs.
Proof. intros xs. unfold strengths. induction xs as [|x xs IH]; cbn [fold_right]; [lra|]. pose proof (strength_nonneg x). lra. Qed.
Lemma strengths_map : forall (f : edge -> list C) l, strengths (map f l) = total l (fun e => strength (f e)).
Proof. intros f l. unfold strengths, total. induction l as [|e l IH]; [reflexivity|]. cbn [map fold_right]. rewrite IH. reflexivity. Qed.
Lemma strengths_prefix : forall (f : edge -> list C) l states, (forall i e, nth_error l i = Some e -> nth_error states i = Some (f e)) -> total l (fun e => strength (f e)) <= strengths states.
Proof.
  intros f. induction l as [|e l IH]; intros states H; [unfold total; cbn [fold_right]; apply strengths_nonneg|]. pose proof (H 0%nat e eq_refl) as H0. destruct states as [|s states]; [discriminate|]. injection H0 as ->.
  unfold total, strengths. cbn [fold_right]. apply Rplus_le_compat_l. apply (IH states). intros i e' Hi. exact (H (S i) e' Hi).
Qed.

Lemma assoc_find : forall {V} n (l : list (nat * V)), assoc n l = option_map snd (find (fun x => Nat.eqb (fst x) n) l).
Proof. intros V n. induction l as [|[m v] l IH]; [reflexivity|]. cbn [assoc find fst]. rewrite Nat.eqb_sym. destruct (Nat.eqb m n); [reflexivity|exact IH]. Qed.

Section Bound.
Variable st : store.
Variable p : grid.
Variable g : graph.
Variable src : list C.
Variable n0 : nat.
Hypothesis W : wf g.
Hypothesis A : acyclic g.
Hypothesis T : typed g.
Hypothesis Fu : furnished g st.
Hypothesis U : usable (n_samples p) (window_t p).
Hypothesis Ls : length src = n_samples p.
Hypothesis Hn : bin_spans (n_samples p) (window_t p) n0.
Hypothesis Shaper : contains g WaveShaper -> n_samples p <> 2%nat.
Hypothesis Filter : contains g ProgrammableFilter -> fine_grid (n_samples p) (window_t p).

Lemma node_limit_at : forall n c, model_at g n c -> node_limit g n = match ccls c with FrequencySplitter => INR (departures g n) | _ => 1 end.
Proof.
  intros n c (d & Md & <-). unfold node_limit. apply (node_data_iff g n d W) in Md. unfold node_data in Md. rewrite assoc_find in Md.
  destruct (find _ (g_nodes g)) as [[m d']|]; [|discriminate]. cbn [option_map snd] in Md. assert (d' = d) by congruence. subst d'. reflexivity.
Qed.
Lemma node_limit_one : forall n, is_node g n -> 1 <= node_limit g n.
Proof.
  intros n H. destruct (node_data_ex g n H) as (d & Ed). assert (M : model_at g n (n_model d)) by (exists d; split; [apply (node_data_iff g n d W); exact Ed|reflexivity]).
  rewrite (node_limit_at n _ M). destruct (typed_class g n _ W T M) as [(Cc & _)|[(Cc & _)|(Cc & _ & Dp)]]; [rewrite Cc; lra|rewrite Cc; lra|].
  destruct (ccls (n_model d)); try lra. apply (le_INR 1); exact Dp.
Qed.
Lemma chain_route : forall l n, chain_limit g st n l = node_limit g n * route (limit_of st) (node_limit g) n l.
Proof. induction l as [|e l IH]; intros n; cbn [chain_limit route]; [reflexivity|]. rewrite IH. reflexivity. Qed.

Variable B : behaviour (list C) unit.
Hypothesis Ph : phased st p g B.
Lemma run_bound : forall val out K starts ends, solves B tt g src val out -> route_bound g st K -> lists (starting g) starts -> lists (ending g) ends ->
  total ends (fun e => detected e (val e)) <= K * total starts (fun e => strength (val e)) /\
  (forall n, is_node g n -> ~ no_input g n -> ~ no_output g n -> total (arriving g n) (fun e => strength (val e)) <= K * total starts (fun e => strength (val e))).
Proof.
  intros val out K starts ends Sol Kb L1 L2.
  assert (Lv : forall e, In e (g_edges g) -> length (val e) = n_samples p) by exact (run_lengths st p g src n0 W A T Fu U Ls Hn B Ph val out Sol).
  assert (Lr : forall n s, In s (received g src val n) -> length s = n_samples p).
  { intros n. apply (received_kind g src W (fun s => length s = n_samples p) Ls val n). intros e He _. exact (Lv e He). }
  pose (P := fun (e : edge) (s : list C) => length s = n_samples p /\ exists c states i, model_at g (e_src e) c /\
     snd (node_act B c (received g src val (e_src e)) (arrivals g (e_src e)) (departures g (e_src e)) tt) = Ok states /\
     nth_error (leaving g (e_src e)) i = Some e /\ nth_error states i = Some s /\ snd (edge_act B (e_model (e_dat e)) s tt) = Ok (val e)).
  destruct (edge_choice [] P (g_edges g) (wf_keys g W)) as (f & Hf).
  { intros e He. destruct (wf_ends g W e He) as [Ns _]. destruct (node_data_ex g _ Ns) as (d & Ed).
    assert (M : model_at g (e_src e) (n_model d)) by (exists d; split; [apply (node_data_iff g _ d W); exact Ed|reflexivity]).
    destruct (Sol _ _ M) as (states & E1 & _ & E3). assert (Il : In e (leaving g (e_src e))) by (apply In_leaving; auto). apply In_nth_error in Il as (i & Hi). destruct (E3 i e Hi) as (s & Es & Ea).
    exists s. split; [|exists (n_model d), states, i; auto].
    pose proof (node_works st p g src W T Fu U Ls B Ph _ _ (received g src val (e_src e)) M (received_length g src W _ _ W) (Lr _)) as K1. destruct (outputs_of g (e_src e)); [|destruct K1 as (er & K1); rewrite K1 in E1; discriminate].
    destruct K1 as (states' & K1 & _ & K2). rewrite K1 in E1. injection E1 as ->. apply K2. exact (nth_error_In _ _ Es). }
  destruct (toposort_some g W A) as (o & _ & V). pose proof (valid_closed g W o V) as Oo.
  assert (N1 : forall e, 0 <= strength (f e)) by (intros; apply strength_nonneg).
  assert (N2 : forall e, 0 <= strength (val e)) by (intros; apply strength_nonneg).
  assert (Raised : forall e, In e (g_edges g) -> ~ no_input g (e_src e) -> ~ no_output g (e_dst e) -> strength (val e) <= limit_of st e * strength (f e)).
  { intros e He Ni No. destruct (Hf e He) as (Lf & c & states & i & M & E1 & E2 & E3 & E4). destruct (edge_values st p g n0 Fu e He) as (o' & ps & Hh & Al & G & _).
    destruct (proj2 Ph e (f e) He) as [Eb|(Cp & phi & Eb)]; rewrite Eb in E4.
    2: { cbn [snd] in E4. rewrite (phase_shifter_exact phi p (f e) U Lf) in E4. injection E4 as <-. unfold limit_of. rewrite G, Cp. unfold gain_limit. rewrite Rmult_1_l. unfold strength.
         right. f_equal. clear. unfold energy. induction (f e) as [|z l IH]; [reflexivity|]. cbn [map fold_right]. rewrite IH, Cnorm2_mul, cis_norm. ring. }
    cbn [edge_act optics snd] in E4. rewrite G in E4. cbn [bind] in E4. unfold limit_of. rewrite G. apply (component_gain _ ps p (f e) (val e) n0); auto.
    - exact (ty_edge_inner g T e He Ni No).
    - intros Ec. apply Shaper. exists e; auto.
    - intros Ec. apply Filter. exists e; auto. }
  assert (Passed : forall n, is_node g n -> ~ no_input g n -> ~ no_output g n -> total (leaving g n) (fun e => strength (f e)) <= node_limit g n * total (arriving g n) (fun e => strength (val e))).
  { intros n Nn Ni No. destruct (node_data_ex g n Nn) as (d & Ed). assert (M : model_at g n (n_model d)) by (exists d; split; [apply (node_data_iff g n d W); exact Ed|reflexivity]).
    destruct (Sol _ _ M) as (states & E1 & _ & E3).
    assert (Pre : total (leaving g n) (fun e => strength (f e)) <= strengths states).
    { apply strengths_prefix. intros i e Hi. assert (He : In e (leaving g n)) by exact (nth_error_In _ _ Hi). apply In_leaving in He as [H1 H2].
      destruct (Hf e H1) as (_ & c & states' & j & M' & F1 & F2 & F3 & _). rewrite H2 in M', F1, F2. assert (Ecc : c = n_model d) by (destruct M as (d1 & M1 & <-), M' as (d2 & M2 & <-); apply (node_data_iff g n _ W) in M1, M2; congruence). rewrite Ecc in F1. rewrite F1 in E1. injection E1 as ->.
      assert (i = j); [|congruence]. assert (Ndl : NoDup (leaving g n)) by (unfold leaving; apply NoDup_filter; exact (NoDup_map_inv _ _ (wf_keys g W))).
      apply (proj1 (NoDup_nth_error (leaving g n)) Ndl); [apply nth_error_Some; congruence|congruence]. }
    eapply Rle_trans; [exact Pre|]. assert (Rc : strengths (received g src val n) = total (arriving g n) (fun e => strength (val e))).
    { unfold received. destruct (arriving g n) as [|e l] eqn:Ea; [|apply strengths_map]. exfalso. apply Ni. split; [exact Nn|]. intros e He Ed'. assert (X : In e (arriving g n)) by (apply (In_arriving g n e W); auto). rewrite Ea in X. contradiction. }
    rewrite <- Rc, (node_limit_at n _ M). pose proof (received_length g src W val n W) as Lrc.
    destruct (proj2 Fu n _ M) as (o' & ps & H & Pr). apply has_params in H. rewrite (proj1 Ph) in E1. cbn [node_act optics snd] in E1. rewrite H in E1. cbn [bind] in E1.
    destruct (typed_class g n _ W T M) as [(Cc & I & _)|[(Cc & Dp)|(Cc & Ar & Dp)]]; [contradiction|exfalso; apply No, (no_output_dep g n Nn), Dp|].
    assert (Fm : family_of (ccls (n_model d)) = MultiPath) by (destruct Cc as [-> | ->]; reflexivity). rewrite Fm in Pr. destruct (ratios_fractions _ _ Pr) as (Er & La & D1 & Rr).
    destruct Cc as [Cc|Cc]; rewrite Cc in *; cbn [connector] in E1; rewrite Er in E1; cbn [bind] in E1.
    - rewrite Rmult_1_l. apply (splitter_strength (map number ps) (arrivals g n) (departures g n) _ (n_samples p) states La Rr D1 Ar); [rewrite Lrc; apply Nat.max_r; exact Ar|exact (Lr n)|exact E1].
    - replace (departures g n) with (S (length (map number ps))) by lia. apply (frequency_strength (map number ps) p); [exact U|intros X; rewrite X in Lrc; cbn [length] in Lrc; lia|exact (Lr n)|exact E1]. }
  assert (Kb' : forall e l, starting g e -> chain g (e_dst e) l -> node_limit g (e_dst e) * route (limit_of st) (node_limit g) (e_dst e) l <= K) by (intros e l H1 H2; rewrite <- chain_route; exact (Kb e l H1 H2)).
  split.
  - apply Rle_trans with (total ends (fun e => strength (f e))).
    + apply total_le. intros e He. apply (proj2 L2) in He as (He & Ni & No). destruct (Hf e He) as (_ & c & states & i & _ & _ & _ & _ & E4). destruct (edge_values st p g n0 Fu e He) as (o' & ps & _ & _ & G & _).
      destruct (proj2 Ph e (f e) He) as [Eb|(Cp & phi & Eb)]; rewrite Eb in E4; [|unfold detected; rewrite Cp; apply strength_nonneg].
      cbn [edge_act optics snd] in E4. rewrite G in E4. cbn [bind] in E4. unfold detected. destruct (ccls (e_model (e_dat e))); try apply strength_nonneg; cbn [component] in E4; injection E4 as <-.
      * unfold strength. apply Req_le. f_equal. unfold measurement_device, power_, energy. clear. induction (f e) as [|z l IH]; [reflexivity|]. cbn [map fold_right]. cbn [fst RtoC]. rewrite IH. reflexivity.
      * lra.
    + apply (network_ends g W (fun e => strength (f e)) (fun e => strength (val e)) (limit_of st) (node_limit g) N1 N2 node_limit_one Raised Passed o Oo K Kb' starts ends L1 L2).
  - intros n Nn Ni No. apply (network_arriving g W (fun e => strength (f e)) (fun e => strength (val e)) (limit_of st) (node_limit g) N1 N2 node_limit_one Raised Passed o Oo K Kb' starts n L1 Nn Ni No).
Qed.
End Bound.

Lemma network_bound : forall st p g src n0, wf g -> acyclic g -> typed g -> furnished g st -> usable (n_samples p) (window_t p) -> length src = n_samples p -> bin_spans (n_samples p) (window_t p) n0 ->
  (contains g WaveShaper -> n_samples p <> 2%nat) -> (contains g ProgrammableFilter -> fine_grid (n_samples p) (window_t p)) ->
  forall val out K starts ends, solves (optics st p) tt g src val out -> route_bound g st K -> lists (starting g) starts -> lists (ending g) ends ->
  total ends (fun e => detected e (val e)) <= K * total starts (fun e => strength (val e)) /\
  (forall n, is_node g n -> ~ no_input g n -> ~ no_output g n -> total (arriving g n) (fun e => strength (val e)) <= K * total starts (fun e => strength (val e))).
Proof. intros st p g src n0 W A T Fu U Ls Hn Sh Fi. exact (run_bound st p g src n0 W A T Fu U Ls Hn Sh Fi (optics st p) (phased_optics st p g)). Qed.
