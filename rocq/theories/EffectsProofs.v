(** Exact effect of each operator (C06), add-series/remove round trip (C07),
    and soundness of scripts. *)
From Coq Require Import List Arith Bool Lia Relations Permutation.
From Verif Require Import GraphModel GraphSpec GraphProofs TopoProofs OperatorsModel OperatorsSpec
  OperatorsProofs EvolutionProofs TypingProofs ScriptModel.
Import ListNotations.

(** ** Scripts *)

Lemma cls_mem_In : forall c l, cls_mem c l = true -> In c l.
Proof.
  intros c l H; apply existsb_exists in H; destruct H as (x & Hx & E); apply cls_eqb_eq in E; subst; exact Hx.
Qed.

Lemma location_eqb_eq : forall a b, location_eqb a b = true -> a = b.
Proof.
  intros [n|i|n i|x y] [m|j|m j|z w]; cbn [location_eqb]; try discriminate; intros H;
    rewrite ?andb_true_iff, ?Nat.eqb_eq, ?eid_eqb_eq in H; try destruct H; congruence.
Qed.

Lemma draws_okb_ok : forall L o g l d, draws_okb L o g l d = true -> draws_ok L o g l d.
Proof.
  intros L o g l d H; destruct o; simpl in *.
  - rewrite !andb_true_iff, !negb_true_iff, !mem_false, Nat.eqb_neq in H.
    destruct H as (((((((H1 & H2) & H3) & H4) & H5) & H6) & H7) & H8).
    apply cls_mem_In in H1; apply cls_mem_In in H3; repeat split; assumption.
  - rewrite !andb_true_iff, !negb_true_iff, !mem_false in H. destruct H as ((H1 & H2) & H3).
    apply cls_mem_In in H1; auto.
  - exact I.
  - destruct l as [n|i|n i|x y]; try discriminate;
      rewrite !andb_true_iff, !negb_true_iff, !mem_false in H; destruct H as ((H1 & H2) & H3); split; try (split; assumption).
    + intros c E _; rewrite E in H1; apply cls_mem_In in H1; exact H1.
    + intros e E _; rewrite E in H1; apply cls_mem_In in H1; exact H1.
Qed.

Lemma run_script_run : forall L s g g', run_script L g s = Some g' -> evo_run L g (map (fun x => fst (fst x)) s) g'.
Proof.
  intros L s; induction s as [|[[o l] d] s IH]; intros g g' H; simpl in H.
  - injection H as <-; constructor.
  - destruct (possible_locations L o g) as [locs|] eqn:E; [|discriminate].
    destruct (existsb (location_eqb l) locs && draws_okb L o g l d) eqn:B; [|discriminate].
    destruct (apply_op L o g l d) as [g1|] eqn:Ap; [|discriminate].
    apply andb_true_iff in B; destruct B as [B1 B2]. apply existsb_exists in B1; destruct B1 as (x & Hx & Ex).
    apply location_eqb_eq in Ex; subst x. apply draws_okb_ok in B2. simpl. econstructor; [|apply IH; exact H].
    econstructor; eassumption.
Qed.

(** ** Draws always exist for a library with components *)

Definition fresh_nat (l : list nat) : nat := S (fold_right Nat.max 0 l).
Lemma fresh_nat_not_In : forall l, ~ In (fresh_nat l) l.
Proof.
  intros l H. assert (B : forall x, In x l -> x <= fold_right Nat.max 0 l).
  { clear; induction l as [|y r IH]; simpl; [tauto|]. intros x [->|Hx]; [lia|]. specialize (IH x Hx); lia. }
  specialize (B _ H); unfold fresh_nat in B; lia.
Qed.

Lemma draws_exist : forall L o g l locs, lib_ok L -> wf g -> edge_models L <> [] -> node_models L <> [] ->
  possible_locations L o g = Some locs -> In l locs -> exists d, draws_ok L o g l d.
Proof.
  intros L o g l locs LO W HE HN E Hl.
  destruct (edge_models L) as [|ce re] eqn:Ee; [congruence|].
  destruct (node_models L) as [|cn rn] eqn:En; [congruence|].
  set (f := fresh_nat (used_ids g)).
  assert (F1 : ~ In f (used_ids g)) by apply fresh_nat_not_In.
  assert (F2 : ~ In (S f) (used_ids g)).
  { intros H. assert (B : forall (ls : list nat) x, In x ls -> x <= fold_right Nat.max 0 ls).
    { clear; intros ls; induction ls as [|y r IH]; simpl; [tauto|]. intros x [->|Hx]; [lia|]. specialize (IH x Hx); lia. }
    apply B in H. unfold f, fresh_nat in H; lia. }
  set (mk := fun c => mkDraws (mkComp f ce false) (mkComp (S f) cn false) (mkComp f c false) (fresh_nat (node_ids g))).
  destruct o; simpl in E.
  - exists (mk ce); simpl. rewrite Ee, En. repeat split; try (left; reflexivity); try assumption; [lia|].
    apply fresh_nat_not_In.
  - exists (mk ce); simpl. rewrite Ee. repeat split; [left; reflexivity|assumption].
  - exists (mk ce); simpl; exact I.
  - injection E as <-. destruct (In_swap_locations L g l W Hl) as [(n & nd & -> & D & P & I & O & Len)|(e & -> & He & P & Len)].
    + destruct (swap_set (node_models L) (ccls (n_model nd))) as [|c r] eqn:Es.
      * exfalso; revert Es; apply swap_set_nonempty; [apply (lib_node_nd L LO)|exact Len].
      * exists (mk c); cbn. split; [|split; [reflexivity|exact F1]].
        intros c0 Ec _. unfold node_cls in Ec; rewrite D in Ec; injection Ec as <-. rewrite Es; left; reflexivity.
    + assert (ND : NoDup (edge_swap_models L g (e_src e) (e_dst e))).
      { unfold edge_swap_models. destruct (match node_cls g (e_src e) with Some TerminalSource => true | _ => false end);
          [apply (lib_source_nd L LO)|]. destruct (match node_cls g (e_dst e) with Some TerminalSink => true | _ => false end);
          [apply (lib_sink_nd L LO)|apply (lib_edge_nd L LO)]. }
      destruct (swap_set (edge_swap_models L g (e_src e) (e_dst e)) (ccls (e_model (e_dat e)))) as [|c r] eqn:Es.
      * exfalso; revert Es; apply swap_set_nonempty; assumption.
      * exists (mk c); cbn. split; [|split; [reflexivity|exact F1]].
        intros e0 E0 _. rewrite (In_find_edge g e W He) in E0; injection E0 as <-. rewrite Es; left; reflexivity.
Qed.

(** ** Exact effects *)

Lemma series_at : forall L g n i d, wf g -> acyclic g -> In (LIface n i) (series_locations g) ->
  draws_ok L AddSeries g (LIface n i) d ->
  exists e rest g',
    i = (e_src e, e_dst e, e_key e) /\ (n = e_src e \/ n = e_dst e) /\ e_src e <> e_dst e /\
    Permutation (g_edges g) (e :: rest) /\
    apply_op L AddSeries g (LIface n i) d = Some g' /\ wf g' /\ acyclic g' /\
    g_nodes g' = g_nodes g ++ [(d_id d, fresh_ndata (d_node d))] /\
    Permutation (g_edges g')
      (mkE (e_src e) (d_id d) 0 (if Nat.eqb n (e_src e) then fresh_edata (d_edge d) else e_dat e) ::
       mkE (d_id d) (e_dst e) 0 (if Nat.eqb n (e_src e) then e_dat e else fresh_edata (d_edge d)) :: rest).
Proof.
  intros L g n i d W A Hl Hd.
  pose proof Hl as Hl'. apply (In_interfaces g n i W) in Hl'; destruct Hl' as (e & He & -> & Hn).
  destruct (apply_op_total L AddSeries g (LIface n (e_id e)) d (series_locations g) W eq_refl Hl) as (g' & Ha).
  assert (St : evo_step L g AddSeries g') by (econstructor; [reflexivity|exact Hl|exact Hd|exact Ha]).
  destruct (step_effect L g AddSeries g' W A St) as [W' E'].
  pose proof (effect_acyclic L g _ g' W A E') as A'.
  exists e, (g_edges (remove_edge g (e_id e))), g'.
  assert (NL := acyclic_no_loop g e A He).
  split; [reflexivity|]. split; [destruct Hn as [[? _]|[? _]]; auto|]. split; [exact NL|].
  split; [apply remove_edge_perm; assumption|]. split; [exact Ha|]. split; [exact W'|]. split; [exact A'|].
  (* recompute the shape for this very location *)
  simpl in Ha. unfold apply_series in Ha. rewrite (In_find_edge g e W He) in Ha.
  simpl in Hd; destruct Hd as (D1 & D2 & D3 & D4 & D5 & D6 & D7 & D8).
  assert (Fr : ~ is_node g (d_id d)) by (rewrite <- node_ids_is_node; exact D8).
  destruct (wf_ends g W e He) as [Ns Nd].
  set (g2 := remove_edge (add_node g (d_id d) (fresh_ndata (d_node d))) (e_id e)) in *.
  assert (T2 : g_edges g2 = g_edges (remove_edge g (e_id e))) by (unfold g2; rewrite (add_node_fresh g _ _ Fr); reflexivity).
  assert (G2 : g_nodes g2 = g_nodes g ++ [(d_id d, fresh_ndata (d_node d))]) by (unfold g2; rewrite (add_node_fresh g _ _ Fr); reflexivity).
  assert (Out : forall x, In x (g_edges g2) -> e_src x <> d_id d /\ e_dst x <> d_id d).
  { rewrite T2; intros x Hx; apply In_remove_edge in Hx; destruct Hx as [Hx _].
    destruct (wf_ends g W x Hx) as [Na Nb]; split; intros Ex; apply Fr; rewrite <- Ex; assumption. }
  assert (Build : forall d1 d2,
      Permutation (g_edges (add_edge (add_edge g2 (e_src e) (d_id d) d1) (d_id d) (e_dst e) d2))
        (mkE (e_src e) (d_id d) 0 d1 :: mkE (d_id d) (e_dst e) 0 d2 :: g_edges (remove_edge g (e_id e)))).
  { intros d1 d2. eapply Permutation_trans; [apply add_edge_edges|].
    rewrite (new_key_zero _ (d_id d) (e_dst e)).
    + eapply Permutation_trans; [constructor; apply add_edge_edges|].
      rewrite (new_key_zero (g_edges g2) (e_src e) (d_id d)).
      * rewrite T2. apply perm_swap.
      * intros x Hx [_ Ex]; exact (proj2 (Out x Hx) Ex).
    + intros x Hx [Ex Ey]; apply In_add_edge in Hx; destruct Hx as [->|Hx]; [|exact (proj1 (Out x Hx) Ex)].
      simpl in Ex; apply Fr; rewrite <- Ex; exact Ns. }
  destruct (Nat.eqb_spec n (e_src e)) as [En|En].
  - injection Ha as <-. subst n. split; [exact G2|apply Build].
  - injection Ha as <-. destruct Hn as [[E _]|[-> N]]; [congruence|]. split; [exact G2|apply Build].
Qed.

Lemma parallel_at : forall L g a b locs d, wf g -> acyclic g ->
  parallel_locations g = Some locs -> In (LPair a b) locs -> draws_ok L AddParallel g (LPair a b) d ->
  exists k g', apply_op L AddParallel g (LPair a b) d = Some g' /\
    a <> b /\ inner g a /\ inner g b /\ ~ path g b a /\
    g_nodes g' = g_nodes g /\
    (forall e, In e (g_edges g) -> (e_src e, e_dst e, e_key e) <> (a, b, k)) /\
    Permutation (g_edges g') (mkE a b k (fresh_edata (d_edge d)) :: g_edges g).
Proof.
  intros L g a b locs d W A E Hl Hd.
  destruct (In_parallel g locs _ W E Hl) as (a' & b' & El & Na & Nb & Oa & Ob & Hab & o & V & I).
  injection El as <- <-. exists (new_edge_key (g_edges g) a b).
  simpl; unfold apply_parallel.
  rewrite (proj2 (has_node_true g a) Na), (proj2 (has_node_true g b) Nb). eexists; split; [reflexivity|].
  assert (Inn : forall m, is_node g m -> parallel_node_ok g m = true -> inner g m).
  { intros m Nm Om. unfold parallel_node_ok in Om. rewrite !andb_true_iff, !negb_true_iff, !Nat.eqb_neq in Om.
    split; [exact Nm|]. rewrite no_input_iff, no_output_iff; tauto. }
  split; [exact Hab|]. split; [apply Inn; assumption|]. split; [apply Inn; assumption|]. split.
  - intros P; apply path_cases in P; destruct P as [->|P]; [congruence|].
    apply (rank_path1 g (fun x => index_of x o) (valid_order_rank g o W V)) in P; lia.
  - split; [reflexivity|]. split; [intros e He; apply new_key_fresh; exact He|apply add_edge_edges].
Qed.

Lemma remove_at : forall L g n i d, wf g -> acyclic g -> In (LIface n i) (remove_locations g) ->
  exists e rest g' dn, i = (e_src e, e_dst e, e_key e) /\ (n = e_src e \/ n = e_dst e) /\
    Permutation (g_edges g) (e :: rest) /\
    In (n, dn) (g_nodes g) /\
    apply_op L Remove g (LIface n i) d = Some g' /\ wf g' /\
    ((path (mkG (g_nodes g) rest) (e_src e) (e_dst e) /\
      g_nodes g' = g_nodes g /\ g_edges g' = rest)
     \/
     (~ path (mkG (g_nodes g) rest) (e_src e) (e_dst e) /\
      ~ is_node g' (e_dst e) /\
      In (e_src e, dn) (g_nodes g') /\
      (forall m dm, m <> e_src e -> m <> e_dst e -> (In (m, dm) (g_nodes g') <-> In (m, dm) (g_nodes g))) /\
      Permutation (connections g')
        (map (fun t => match t with (a, b, c) => (merge (e_src e) (e_dst e) a, merge (e_src e) (e_dst e) b, c) end)
             (map connection rest)) /\
      (forall x, In x rest -> e_src x <> e_dst e -> e_dst x <> e_dst e -> In x (g_edges g')) /\
      g_nodes g' = set_assoc (e_src e) dn (filter (fun p => negb (Nat.eqb (fst p) (e_dst e))) (g_nodes g)))).
Proof.
  intros L g n i d W A Hl.
  destruct (In_remove_locations g _ W Hl) as (n' & e & du & dv & El & He & Hn & R1 & R2 & R3 & Du & Pu & Dv & Pv).
  injection El as <- ->.
  assert (W1 : wf (remove_edge g (e_id e))) by (apply wf_remove_edge; exact W).
  assert (Sv : exists save, node_data g n = Some save) by (destruct Hn as [->| ->]; eauto).
  destruct Sv as [save Sv].
  exists e, (g_edges (remove_edge g (e_id e))).
  simpl apply_op; unfold apply_remove. rewrite (In_find_edge g e W He).
  change (node_data (remove_edge g (e_id e)) n) with (node_data g n). rewrite Sv.
  destruct (has_path (remove_edge g (e_id e)) (e_src e) (e_dst e)) eqn:Hp.
  - apply (has_path_iff _ _ _ W1) in Hp. eexists; exists save.
    split; [reflexivity|]. split; [exact Hn|]. split; [apply remove_edge_perm; assumption|].
    split; [apply node_data_In; exact Sv|]. split; [reflexivity|]. split; [exact W1|].
    left; auto.
  - apply (has_path_false _ _ _ W1) in Hp. eexists; exists save.
    split; [reflexivity|]. split; [exact Hn|]. split; [apply remove_edge_perm; assumption|].
    split; [apply node_data_In; exact Sv|]. split; [reflexivity|].
    pose proof (acyclic_no_loop g e A He) as NL.
    destruct (merge_facts g e A He Hp) as (M1 & M2 & M3).
    destruct (wf_ends g W e He) as [Ns Nd].
    split; [apply wf_set_node_data, contract_wf; [exact W1|exact Ns|exact NL]|].
    right. split; [exact Hp|].
    set (g1 := remove_edge g (e_id e)) in *.
    assert (Gn : g_nodes (set_node_data (contract g1 (e_src e) (e_dst e)) (e_src e) save) =
                 set_assoc (e_src e) save (filter (fun p => negb (Nat.eqb (fst p) (e_dst e))) (g_nodes g))).
    { unfold set_node_data; cbn [g_nodes]. rewrite contract_nodes. reflexivity. }
    split; [|split; [|split; [|split; [|split; [|exact Gn]]]]].
    + rewrite <- node_ids_is_node. unfold node_ids; rewrite Gn, set_assoc_fst. intros H; apply in_map_iff in H.
      destruct H as (p & E & H); apply filter_In in H; destruct H as [_ H]. rewrite E, Nat.eqb_refl in H; discriminate.
    + rewrite Gn. apply assoc_In. rewrite assoc_set_assoc, Nat.eqb_refl; [reflexivity|].
      apply In_fst_ex; exists du; apply filter_In; split; [apply node_data_In; exact Du|].
      simpl; apply negb_true_iff, Nat.eqb_neq; exact NL.
    + intros m dm Hm1 Hm2. rewrite Gn, In_set_assoc_neq by exact Hm1. rewrite filter_In; simpl.
      rewrite negb_true_iff, Nat.eqb_neq; tauto.
    + pose proof (contract_triples g1 (e_src e) (e_dst e) NL M1 M2 M3) as P.
      apply (Permutation_map (fun t => match t with (a, b, x) => (a, b, e_model x) end)) in P.
      unfold connections, triples in *. rewrite !map_map in P. rewrite !map_map. exact P.
    + intros x Hx Hs Hd. unfold set_node_data; cbn [g_edges]. rewrite contract_unfold.
      apply add_edges_keep, In_remove_node; auto.
Qed.

Lemma swap_node_at : forall L g n d, lib_ok L -> wf g -> In (LNode n) (swap_locations L g) ->
  draws_ok L Swap g (LNode n) d ->
  exists nd g', In (n, nd) (g_nodes g) /\ apply_op L Swap g (LNode n) d = Some g' /\
    g_edges g' = g_edges g /\ map fst (g_nodes g') = map fst (g_nodes g) /\
    model_at g' n (d_swap d) /\
    ccls (d_swap d) <> ccls (n_model nd) /\ In (ccls (d_swap d)) (node_models L) /\
    (forall m dm, m <> n -> (In (m, dm) (g_nodes g') <-> In (m, dm) (g_nodes g))).
Proof.
  intros L g n d LO W Hl Hd.
  destruct (In_swap_locations L g _ W Hl) as [(n' & nd & El & D & P & I & O & Len)|(e & El & _)]; [|discriminate].
  injection El as <-. exists nd. simpl; unfold apply_swap_node; rewrite D.
  simpl in Hd; destruct Hd as (D1 & D2 & D3). unfold node_cls in D1; rewrite D in D1. specialize (D1 _ eq_refl).
  pose proof (swap_set_nonempty (node_models L) (ccls (n_model nd)) (lib_node_nd L LO) Len) as NE.
  specialize (D1 NE). apply In_swap_set in D1; destruct D1 as [D1a D1b].
  destruct (swap_set (node_models L) (ccls (n_model nd))); [congruence|].
  eexists; split; [apply node_data_In; exact D|]. split; [reflexivity|].
  split; [reflexivity|]. split; [simpl; apply set_assoc_fst|]. split.
  - exists (mkND (d_swap d) (n_name nd)); split; [|reflexivity]. simpl. apply assoc_In.
    rewrite assoc_set_assoc, Nat.eqb_refl; [reflexivity|]. apply In_fst_ex; exists nd; apply node_data_In; exact D.
  - split; [exact D1b|]. split; [exact D1a|]. intros m dm Hm; simpl; apply In_set_assoc_neq; exact Hm.
Qed.

Lemma swap_edge_at : forall L g i d, lib_ok L -> wf g -> In (LEdge i) (swap_locations L g) ->
  draws_ok L Swap g (LEdge i) d ->
  exists e rest g', i = (e_src e, e_dst e, e_key e) /\ Permutation (g_edges g) (e :: rest) /\
    apply_op L Swap g (LEdge i) d = Some g' /\
    g_nodes g' = g_nodes g /\
    Permutation (g_edges g') (mkE (e_src e) (e_dst e) (e_key e) (mkED (d_swap d) (e_name (e_dat e))) :: rest) /\
    ccls (d_swap d) <> ccls (e_model (e_dat e)) /\
    (typed g -> family_of (ccls (d_swap d)) = family_of (ccls (e_model (e_dat e)))).
Proof.
  intros L g i d LO W Hl Hd.
  destruct (In_swap_locations L g _ W Hl) as [(n' & nd & El & _)|(e & El & He & P & Len)]; [discriminate|].
  injection El as ->. exists e, (g_edges (remove_edge g (e_id e))).
  simpl apply_op; unfold apply_swap_edge; rewrite (In_find_edge g e W He).
  assert (ND : NoDup (edge_swap_models L g (e_src e) (e_dst e))).
  { unfold edge_swap_models. destruct (match node_cls g (e_src e) with Some TerminalSource => true | _ => false end);
      [apply (lib_source_nd L LO)|]. destruct (match node_cls g (e_dst e) with Some TerminalSink => true | _ => false end);
      [apply (lib_sink_nd L LO)|apply (lib_edge_nd L LO)]. }
  simpl in Hd; destruct Hd as (D1 & D2 & D3). specialize (D1 e (In_find_edge g e W He)).
  pose proof (swap_set_nonempty _ (ccls (e_model (e_dat e))) ND Len) as NE.
  specialize (D1 NE). apply In_swap_set in D1; destruct D1 as [D1a D1b].
  destruct (swap_set (edge_swap_models L g (e_src e) (e_dst e)) (ccls (e_model (e_dat e)))); [congruence|].
  eexists; split; [reflexivity|]. split; [apply remove_edge_perm; assumption|]. split; [reflexivity|]. split; [reflexivity|].
  split; [apply set_edge_data_perm; assumption|]. split; [exact D1b|].
  intros T. pose proof (swap_models_family L g e _ LO W T He D1a) as (S1 & S2 & S3).
  destruct (wf_ends g W e He) as [Ns Nd].
  destruct (no_input_dec g _ Ns) as [Ii|Ii].
  - rewrite (S1 Ii). symmetry; apply (ty_edge_source g T e He Ii).
  - destruct (no_output_dec g _ Nd) as [Oo|Oo].
    + rewrite (S2 Ii Oo). symmetry; apply (ty_edge_sink g T e He Ii Oo).
    + rewrite (S3 Ii Oo). symmetry; apply (ty_edge_inner g T e He Ii Oo).
Qed.

(** ** Add-series then remove *)

Lemma In_remove_locations_intro : forall g n e du dv, wf g -> In e (g_edges g) ->
  (n = e_src e \/ n = e_dst e) ->
  in_degree g (e_src e) <> 0 -> out_degree g (e_dst e) <> 0 -> cprot (e_model (e_dat e)) = false ->
  node_data g (e_src e) = Some du -> cprot (n_model du) = false ->
  node_data g (e_dst e) = Some dv -> cprot (n_model dv) = false ->
  In (LIface n (e_id e)) (remove_locations g).
Proof.
  intros g n e du dv W He Hn I O Pe Du Pu Dv Pv. unfold remove_locations; apply filter_In; split.
  - apply In_interfaces; [exact W|]. exists e; split; [exact He|]. split; [reflexivity|].
    destruct Hn as [->| ->]; [left|right]; auto.
  - unfold remove_ok. unfold e_id at 1. cbv beta iota. fold (e_id e). rewrite (In_find_edge g e W He).
    unfold node_protected. rewrite Du, Dv, Pe, Pu, Pv. rewrite !andb_true_iff, !negb_true_iff, !Nat.eqb_neq. auto.
Qed.

Lemma filter_ids_app : forall (l : list (nat * ndata)) n d, ~ In n (map fst l) ->
  filter (fun p => negb (Nat.eqb (fst p) n)) (l ++ [(n, d)]) = l.
Proof.
  intros l n d Hn. rewrite filter_app; simpl. rewrite Nat.eqb_refl; simpl. rewrite app_nil_r.
  apply filter_true. intros [m x] Hx; simpl; apply negb_true_iff, Nat.eqb_neq; intros ->; apply Hn.
  change n with (fst (n, x)); apply in_map; exact Hx.
Qed.

Lemma set_assoc_same : forall {A} n (d : A) l, assoc n l = Some d -> set_assoc n d l = l.
Proof.
  intros A n d l; induction l as [|[m x] r IH]; simpl; [discriminate|].
  destruct (Nat.eqb_spec n m) as [->|Hne]; intros H; [injection H as ->; reflexivity|rewrite IH; auto].
Qed.

Lemma assoc_app_l : forall {A} n (d : A) l l', assoc n l = Some d -> assoc n (l ++ l') = Some d.
Proof.
  intros A n d l l'; induction l as [|[m x] r IH]; simpl; [discriminate|]. destruct (Nat.eqb n m); auto.
Qed.

Lemma map_merge_id : forall u v (rest : list edge), (forall x, In x rest -> e_src x <> v /\ e_dst x <> v) ->
  map (fun t : node * node * comp => match t with (a, b, c) => (merge u v a, merge u v b, c) end) (map connection rest)
  = map connection rest.
Proof.
  intros u v rest H. rewrite map_map. apply map_ext_in; intros x Hx. destruct (H x Hx) as [Hs Hd].
  unfold connection, merge. destruct (Nat.eqb_spec (e_src x) v); [contradiction|].
  destruct (Nat.eqb_spec (e_dst x) v); [contradiction|reflexivity].
Qed.

(* splitting at the start of an edge, then removing the inserted piece, restores everything *)
Lemma add_remove_left : forall L g i d c, wf g -> acyclic g ->
  let u := fst (fst i) in
  In (LIface u i) (series_locations g) ->
  (exists dn, In (u, dn) (g_nodes g) /\ cprot (n_model dn) = false) ->
  draws_ok L AddSeries g (LIface u i) d ->
  exists g1 g2, apply_op L AddSeries g (LIface u i) d = Some g1 /\
    In (LIface u (u, d_id d, 0)) (remove_locations g1) /\
    apply_op L Remove g1 (LIface u (u, d_id d, 0)) c = Some g2 /\
    g_nodes g2 = g_nodes g /\ Permutation (connections g2) (connections g).
Proof.
  intros L g i d c W A u Hl (dn & Hdn & Pdn) Hd.
  destruct (series_at L g u i d W A Hl Hd) as (e & rest & g1 & Ei & Hn & NL & Pe & Ha & W1 & A1 & Gn & Ge).
  assert (Eu : u = e_src e) by (unfold u; rewrite Ei; reflexivity). clearbody u. subst i.
  simpl in Hd; destruct Hd as (D1 & D2 & D3 & D4 & D5 & D6 & D7 & D8).
  rewrite Eu in Ge; rewrite Nat.eqb_refl in Ge. rewrite <- Eu in Ge.
  set (e1 := mkE u (d_id d) 0 (fresh_edata (d_edge d))) in *.
  set (e2 := mkE (d_id d) (e_dst e) 0 (e_dat e)) in *.
  assert (He : In e (g_edges g)) by (apply (perm_In _ _ _ Pe); left; reflexivity).
  assert (He1 : In e1 (g_edges g1)) by (apply (perm_In _ _ _ Ge); left; reflexivity).
  assert (He2 : In e2 (g_edges g1)) by (apply (perm_In _ _ _ Ge); right; left; reflexivity).
  assert (Hrest : forall x, In x rest -> In x (g_edges g)) by (intros x Hx; apply (perm_In _ _ _ Pe); right; exact Hx).
  assert (Hout : forall x, In x rest -> e_src x <> d_id d /\ e_dst x <> d_id d).
  { intros x Hx. destruct (wf_ends g W x (Hrest x Hx)) as [Na Nb].
    split; intros E; apply D8, node_ids_is_node; rewrite <- E; assumption. }
  assert (Nu : u <> d_id d).
  { intros E; apply D8; rewrite <- E. unfold node_ids; apply In_fst_ex; exists dn; exact Hdn. }
  assert (Nv : e_dst e <> d_id d).
  { intros E; apply D8, node_ids_is_node; rewrite <- E; apply (wf_ends g W e He). }
  apply (In_interfaces g u (e_id e) W) in Hl; destruct Hl as (e' & He' & Ee' & Hn').
  assert (e' = e) by (eapply (same_edge g); [exact W|exact He'|exact He|symmetry; exact Ee']). subst e'. clear Ee'.
  assert (Iu : in_degree g u <> 0) by (destruct Hn' as [[E N]|[E N]]; [rewrite E; exact N|congruence]).
  assert (Du : node_data g u = Some dn) by (apply node_data_iff; assumption).
  assert (Du1 : node_data g1 u = Some dn) by (unfold node_data; rewrite Gn; apply assoc_app_l; exact Du).
  assert (Dn1 : node_data g1 (d_id d) = Some (fresh_ndata (d_node d))).
  { apply node_data_iff; [exact W1|]. rewrite Gn; apply in_or_app; right; left; reflexivity. }
  assert (Iu1 : in_degree g1 (e_src e1) <> 0).
  { apply in_degree_pos in Iu; destruct Iu as (x & Hx & Ex). apply in_degree_pos.
    apply (perm_In _ _ _ Pe) in Hx; destruct Hx as [<-|Hx]; [congruence|].
    exists x; split; [apply (perm_In _ _ _ Ge); right; right; exact Hx|exact Ex]. }
  assert (On1 : out_degree g1 (e_dst e1) <> 0) by (apply out_degree_pos; exists e2; auto).
  assert (Off : In (LIface u (e_id e1)) (remove_locations g1)).
  { apply (In_remove_locations_intro g1 u e1 dn (fresh_ndata (d_node d)) W1 He1 (or_introl eq_refl) Iu1 On1 D2 Du1 Pdn Dn1 D4). }
  destruct (remove_at L g1 u (e_id e1) c W1 A1 Off) as (x & rest1 & g2 & dx & Ex & Hx & Px & Hdx & Hr & W2 & Cases).
  assert (x = e1). { eapply (same_edge g1); [exact W1|apply (perm_In _ _ _ Px); left; reflexivity|exact He1|symmetry; exact Ex]. }
  subst x. clear Ex.
  assert (dx = dn). { apply (node_data_iff g1 u dx W1) in Hdx; congruence. } subst dx.
  assert (Pr : Permutation rest1 (e2 :: rest)).
  { apply Permutation_cons_inv with (a := e1). eapply Permutation_trans; [apply Permutation_sym; exact Px|exact Ge]. }
  exists g1, g2. split; [exact Ha|]. split; [exact Off|]. split; [exact Hr|].
  destruct Cases as [(Pth & _)|(NP & _ & _ & _ & Co & _ & Gn2)].
  - exfalso. destruct (path_last _ _ _ Pth) as (y & Hy & Ey); [exact Nu|]. simpl in Hy. apply (perm_In _ _ _ Pr) in Hy.
    destruct Hy as [<-|Hy]; [exact (Nv Ey)|exact (proj2 (Hout y Hy) Ey)].
  - split.
    + rewrite Gn2, Gn. cbn [e1 e_src e_dst]. rewrite filter_ids_app by exact D8. apply set_assoc_same; exact Du.
    + eapply Permutation_trans; [exact Co|]. cbn [e1 e_src e_dst].
      eapply Permutation_trans; [apply Permutation_map, Permutation_map; exact Pr|].
      cbn [map]. rewrite map_merge_id by exact Hout.
      unfold connections. eapply Permutation_trans; [|apply Permutation_sym, Permutation_map; exact Pe].
      cbn [map]. unfold connection at 1 3. cbn [e2 e_src e_dst e_dat]. unfold merge; rewrite Nat.eqb_refl.
      destruct (Nat.eqb_spec (e_dst e) (d_id d)); [contradiction|]. rewrite Eu. apply Permutation_refl.
Qed.

(* at the end of an edge, the original comes back with that node relabelled *)
Lemma add_remove_right : forall L g i d c, wf g -> acyclic g ->
  let v := snd (fst i) in
  In (LIface v i) (series_locations g) ->
  (exists dn, In (v, dn) (g_nodes g) /\ cprot (n_model dn) = false) ->
  draws_ok L AddSeries g (LIface v i) d ->
  exists g1 g2, apply_op L AddSeries g (LIface v i) d = Some g1 /\
    In (LIface v (d_id d, v, 0)) (remove_locations g1) /\
    apply_op L Remove g1 (LIface v (d_id d, v, 0)) c = Some g2 /\
    Permutation (node_models_of g2) (map (fun p => (merge (d_id d) v (fst p), snd p)) (node_models_of g)) /\
    Permutation (connections g2)
      (map (fun t => match t with (a, b, x) => (merge (d_id d) v a, merge (d_id d) v b, x) end) (connections g)).
Proof.
  intros L g i d c W A v Hl (dn & Hdn & Pdn) Hd.
  destruct (series_at L g v i d W A Hl Hd) as (e & rest & g1 & Ei & Hn & NL & Pe & Ha & W1 & A1 & Gn & Ge).
  assert (Eu : v = e_dst e) by (unfold v; rewrite Ei; reflexivity). clearbody v. subst i.
  simpl in Hd; destruct Hd as (D1 & D2 & D3 & D4 & D5 & D6 & D7 & D8).
  assert (Hne : Nat.eqb v (e_src e) = false) by (apply Nat.eqb_neq; congruence).
  rewrite Hne in Ge. rewrite <- Eu in Ge.
  set (e1 := mkE (e_src e) (d_id d) 0 (e_dat e)) in *.
  set (e2 := mkE (d_id d) v 0 (fresh_edata (d_edge d))) in *.
  assert (He : In e (g_edges g)) by (apply (perm_In _ _ _ Pe); left; reflexivity).
  assert (He1 : In e1 (g_edges g1)) by (apply (perm_In _ _ _ Ge); left; reflexivity).
  assert (He2 : In e2 (g_edges g1)) by (apply (perm_In _ _ _ Ge); right; left; reflexivity).
  assert (Hrest : forall x, In x rest -> In x (g_edges g)) by (intros x Hx; apply (perm_In _ _ _ Pe); right; exact Hx).
  assert (Hout : forall x, In x rest -> e_src x <> d_id d /\ e_dst x <> d_id d).
  { intros x Hx. destruct (wf_ends g W x (Hrest x Hx)) as [Na Nb].
    split; intros E; apply D8, node_ids_is_node; rewrite <- E; assumption. }
  assert (Nu : v <> d_id d).
  { intros E; apply D8; rewrite <- E. unfold node_ids; apply In_fst_ex; exists dn; exact Hdn. }
  assert (Nv : e_src e <> d_id d).
  { intros E; apply D8, node_ids_is_node; rewrite <- E; apply (wf_ends g W e He). }
  apply (In_interfaces g v (e_id e) W) in Hl; destruct Hl as (e' & He' & Ee' & Hn').
  assert (e' = e) by (eapply (same_edge g); [exact W|exact He'|exact He|symmetry; exact Ee']). subst e'. clear Ee'.
  assert (Ov : out_degree g v <> 0) by (destruct Hn' as [[E N]|[E N]]; [congruence|rewrite E; exact N]).
  assert (Du : node_data g v = Some dn) by (apply node_data_iff; assumption).
  assert (Du1 : node_data g1 v = Some dn) by (unfold node_data; rewrite Gn; apply assoc_app_l; exact Du).
  assert (Dn1 : node_data g1 (d_id d) = Some (fresh_ndata (d_node d))).
  { apply node_data_iff; [exact W1|]. rewrite Gn; apply in_or_app; right; left; reflexivity. }
  assert (Ov1 : out_degree g1 (e_dst e2) <> 0).
  { apply out_degree_pos in Ov; destruct Ov as (x & Hx & Ex). apply out_degree_pos.
    apply (perm_In _ _ _ Pe) in Hx; destruct Hx as [<-|Hx]; [congruence|].
    exists x; split; [apply (perm_In _ _ _ Ge); right; right; exact Hx|exact Ex]. }
  assert (In1 : in_degree g1 (e_src e2) <> 0) by (apply in_degree_pos; exists e1; auto).
  assert (Off : In (LIface v (e_id e2)) (remove_locations g1)).
  { apply (In_remove_locations_intro g1 v e2 (fresh_ndata (d_node d)) dn W1 He2 (or_intror eq_refl) In1 Ov1 D2 Dn1 D4 Du1 Pdn). }
  destruct (remove_at L g1 v (e_id e2) c W1 A1 Off) as (x & rest1 & g2 & dx & Ex & Hx & Px & Hdx & Hr & W2 & Cases).
  assert (x = e2). { eapply (same_edge g1); [exact W1|apply (perm_In _ _ _ Px); left; reflexivity|exact He2|symmetry; exact Ex]. }
  subst x. clear Ex.
  assert (dx = dn). { apply (node_data_iff g1 v dx W1) in Hdx; congruence. } subst dx.
  assert (Pr : Permutation rest1 (e1 :: rest)).
  { apply Permutation_cons_inv with (a := e2). eapply Permutation_trans; [apply Permutation_sym; exact Px|].
    eapply Permutation_trans; [exact Ge|apply perm_swap]. }
  exists g1, g2. split; [exact Ha|]. split; [exact Off|]. split; [exact Hr|].
  destruct Cases as [(Pth & _)|(NP & _ & _ & _ & Co & _ & Gn2)].
  - exfalso. destruct (path_first _ _ _ Pth) as (y & Hy & Ey); [simpl; congruence|]. simpl in Hy. apply (perm_In _ _ _ Pr) in Hy.
    destruct Hy as [<-|Hy]; [exact (Nv Ey)|exact (proj1 (Hout y Hy) Ey)].
  - split.
    + unfold node_models_of. rewrite Gn2, Gn. cbn [e2 e_src e_dst]. rewrite filter_app. cbn [filter fst].
      destruct (Nat.eqb_spec (d_id d) v) as [E|_]; [congruence|]. cbn [negb].
      pose proof (NoDup_filter_fst (g_nodes g) v dn (wf_nodes g W) Hdn) as P0.
      assert (S0 : set_assoc (d_id d) dn (filter (fun p => negb (Nat.eqb (fst p) v)) (g_nodes g) ++ [(d_id d, fresh_ndata (d_node d))])
                   = filter (fun p => negb (Nat.eqb (fst p) v)) (g_nodes g) ++ [(d_id d, dn)]).
      { assert (NI : ~ In (d_id d) (map fst (filter (fun p => negb (Nat.eqb (fst p) v)) (g_nodes g)))).
        { intros H; apply D8. unfold node_ids. apply in_map_iff in H; destruct H as (p & Ep & H); apply filter_In in H.
          rewrite <- Ep; apply in_map; tauto. }
        revert NI. generalize (filter (fun p => negb (Nat.eqb (fst p) v)) (g_nodes g)) as l. clear.
        induction l as [|[m x] r IH]; simpl; intros NI; [rewrite Nat.eqb_refl; reflexivity|].
        destruct (Nat.eqb_spec (d_id d) m) as [E|_]; [exfalso; apply NI; left; symmetry; exact E|].
        rewrite IH; [reflexivity|]. intros H; apply NI; right; exact H. }
      rewrite S0. rewrite map_app. cbn [map].
      eapply Permutation_trans; [apply Permutation_app_comm|]. cbn [app].
      eapply Permutation_trans; [|apply Permutation_map, Permutation_map, Permutation_sym; exact P0].
      cbn [map fst snd]. unfold merge at 1; rewrite Nat.eqb_refl. constructor.
      rewrite map_map. cbn [fst snd]. apply Permutation_refl'. apply map_ext_in; intros [m y] Hm; cbn [fst snd].
      apply filter_In in Hm; destruct Hm as [_ Hm]; cbn [fst] in Hm. apply negb_true_iff in Hm. unfold merge; rewrite Hm; reflexivity.
    + eapply Permutation_trans; [exact Co|]. cbn [e2 e_src e_dst].
      eapply Permutation_trans; [apply Permutation_map, Permutation_map; exact Pr|].
      unfold connections. eapply Permutation_trans; [|apply Permutation_map, Permutation_sym, Permutation_map; exact Pe].
      cbn [map]. unfold connection at 1 3. cbn [e1 e_src e_dst e_dat]. unfold merge at 1 2 5 6.
      rewrite <- Eu, Nat.eqb_refl.
      destruct (Nat.eqb_spec (e_src e) v); [congruence|]. destruct (Nat.eqb_spec (d_id d) v); [congruence|].
      apply Permutation_refl.
Qed.
