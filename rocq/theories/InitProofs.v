(** init_graph (C12) and the structure part of duplicate_and_simplify_graph (C13). *)
From Coq Require Import List Arith Bool Lia Relations Permutation.
From Verif Require Import GraphModel GraphSpec GraphProofs TopoProofs InitSpec.
Import ListNotations.

Lemma init_nodes_gen : forall nodes g, NoDup (map fst (g_nodes g) ++ map fst nodes) ->
  fold_left (fun g p => add_node g (fst p) (mkND (snd p) (ccls (snd p)))) nodes g =
  mkG (g_nodes g ++ map (fun p => (fst p, mkND (snd p) (ccls (snd p)))) nodes) (g_edges g).
Proof.
  induction nodes as [|[n c] r IH]; intros g ND; simpl.
  - rewrite app_nil_r; destruct g; reflexivity.
  - simpl in ND. rewrite add_node_fresh.
    + rewrite IH; cbn [g_nodes g_edges].
      * rewrite <- app_assoc; reflexivity.
      * rewrite map_app, <- app_assoc; exact ND.
    + rewrite <- node_ids_is_node. apply NoDup_remove_2 in ND. intros H; apply ND, in_or_app; left; exact H.
Qed.

Lemma init_nodes_eq : forall nodes, NoDup (map fst nodes) ->
  init_nodes nodes = mkG (map (fun p => (fst p, mkND (snd p) (ccls (snd p)))) nodes) [].
Proof. intros nodes ND; unfold init_nodes; rewrite init_nodes_gen by exact ND; reflexivity. Qed.

Lemma init_nodes_ids : forall nodes, NoDup (map fst nodes) -> node_ids (init_nodes nodes) = map fst nodes.
Proof. intros nodes ND; rewrite init_nodes_eq by exact ND; unfold node_ids; simpl; rewrite map_map; reflexivity. Qed.

Lemma init_nodes_wf : forall nodes, NoDup (map fst nodes) -> wf (init_nodes nodes).
Proof.
  intros nodes ND; constructor.
  - change (NoDup (node_ids (init_nodes nodes))); rewrite init_nodes_ids by exact ND; exact ND.
  - rewrite init_nodes_eq by exact ND; simpl; tauto.
  - rewrite init_nodes_eq by exact ND; simpl; constructor.
Qed.

Lemma init_edges_nodes : forall edges g, g_nodes (init_edges g edges) = g_nodes g.
Proof. induction edges as [|[[[u v] k] c] r IH]; intros g; [reflexivity|]. unfold init_edges in *; simpl; rewrite IH; reflexivity. Qed.

Lemma is_node_same : forall g g' n, g_nodes g' = g_nodes g -> (is_node g' n <-> is_node g n).
Proof. intros g g' n E; unfold is_node; rewrite E; tauto. Qed.

Lemma init_edges_wf : forall edges g, wf g -> (forall u v k c, In ((u, v, k), c) edges -> is_node g u /\ is_node g v) ->
  wf (init_edges g edges).
Proof.
  induction edges as [|[[[u v] k] c] r IH]; intros g W H; [exact W|].
  unfold init_edges in *; simpl. destruct (H u v k c (or_introl eq_refl)) as [Nu Nv]. apply IH.
  - apply wf_add_edge; assumption.
  - intros u' v' k' c' H'; apply (H u' v' k' c'); right; exact H'.
Qed.

Lemma init_edges_connections : forall edges g,
  Permutation (connections (init_edges g edges))
              (connections g ++ map (fun p => match p with ((u, v, _), c) => (u, v, c) end) edges).
Proof.
  induction edges as [|[[[u v] k] c] r IH]; intros g.
  - simpl; rewrite app_nil_r; apply Permutation_refl.
  - unfold init_edges in *; simpl. eapply Permutation_trans; [apply IH|].
    eapply Permutation_trans; [|apply Permutation_middle].
    change ((u, v, c) :: connections g ++ map (fun p : eid * comp => let '(u0, v0, _, c0) := p in (u0, v0, c0)) r)
      with (((u, v, c) :: connections g) ++ map (fun p : eid * comp => let '(u0, v0, _, c0) := p in (u0, v0, c0)) r).
    apply Permutation_app_tail. unfold connections.
    eapply Permutation_trans; [apply Permutation_map, add_edge_edges|]. simpl. apply Permutation_refl.
Qed.

Lemma filter_insert_edge : forall u v x es, filter (same_pair u v) (insert_edge x es) =
  filter (same_pair u v) es ++ (if same_pair u v x then [x] else []).
Proof.
  intros u v x; induction es as [|e r IH]; cbn [insert_edge filter].
  - destruct (same_pair u v x); reflexivity.
  - destruct (same_pair (e_src x) (e_dst x) e && negb (existsb (same_pair (e_src x) (e_dst x)) r)) eqn:B; cbn [filter].
    + apply andb_true_iff in B; destruct B as [B1 B2]. apply negb_true_iff in B2.
      destruct (same_pair u v x) eqn:Sx.
      * assert (Ns : filter (same_pair u v) r = []).
        { apply filter_nil; intros y Hy. destruct (same_pair u v y) eqn:Sy; [|reflexivity]. exfalso.
          assert (T : existsb (same_pair (e_src x) (e_dst x)) r = true).
          { apply existsb_exists; exists y; split; [exact Hy|]. apply same_pair_true in Sx, Sy. apply same_pair_true.
            destruct Sx, Sy; split; congruence. }
          congruence. }
        rewrite Ns. destruct (same_pair u v e); reflexivity.
      * rewrite app_nil_r. destruct (same_pair u v e); reflexivity.
    + rewrite IH. destruct (same_pair u v e); reflexivity.
Qed.

(* consecutive keys in a pair *)
Definition consec (es : list edge) : Prop := forall u v, pair_keys es u v = seq 0 (length (pair_keys es u v)).

Lemma new_key_consec : forall es u v, consec es -> new_edge_key es u v = length (pair_keys es u v).
Proof.
  intros es u v C; unfold new_edge_key. set (ks := pair_keys es u v).
  assert (H : mem (length ks) ks = false).
  { apply mem_false. unfold ks at 2; rewrite (C u v). rewrite in_seq; fold ks; lia. }
  simpl; rewrite H; reflexivity.
Qed.

Lemma pair_keys_add : forall g u v d a b, pair_keys (g_edges (add_edge g u v d)) a b =
  pair_keys (g_edges g) a b ++ (if Nat.eqb u a && Nat.eqb v b then [new_edge_key (g_edges g) u v] else []).
Proof.
  intros; unfold pair_keys, add_edge; cbn [g_edges]. rewrite filter_insert_edge, map_app. f_equal.
  unfold same_pair; cbn [e_src e_dst]. destruct (Nat.eqb u a && Nat.eqb v b); reflexivity.
Qed.

Lemma consec_add : forall g u v d, consec (g_edges g) -> consec (g_edges (add_edge g u v d)).
Proof.
  intros g u v d C a b. rewrite pair_keys_add.
  destruct (Nat.eqb u a && Nat.eqb v b) eqn:E; [|rewrite app_nil_r; apply C].
  apply andb_true_iff in E; destruct E as [E1 E2]; apply Nat.eqb_eq in E1, E2; subst a b.
  rewrite app_length; simpl length. rewrite seq_app. f_equal; [apply C|]. simpl. rewrite new_key_consec by exact C; reflexivity.
Qed.

Lemma init_edges_consec : forall edges g, consec (g_edges g) -> consec (g_edges (init_edges g edges)).
Proof.
  induction edges as [|[[[u v] k] c] r IH]; intros g C; [exact C|]. unfold init_edges in *; simpl; apply IH, consec_add, C.
Qed.

Lemma init_edges_models : forall edges g u v, map snd (between (init_edges g edges) u v) =
  map snd (between g u v) ++ requested edges u v.
Proof.
  induction edges as [|[[[a b] k] c] r IH]; intros g u v; [simpl; rewrite app_nil_r; reflexivity|].
  unfold init_edges in *; simpl. rewrite IH. unfold between, add_edge; cbn [g_edges].
  change (fun e : edge => Nat.eqb (e_src e) u && Nat.eqb (e_dst e) v) with (same_pair u v).
  rewrite filter_insert_edge, !map_app, <- app_assoc. f_equal.
  unfold requested; cbn [filter]. unfold same_pair; cbn [e_src e_dst].
  destruct (Nat.eqb a u && Nat.eqb b v); reflexivity.
Qed.

Lemma combine_split_map : forall {A B} (l : list (A * B)), l = combine (map fst l) (map snd l).
Proof. induction l as [|[a b] r IH]; [reflexivity|]; simpl; f_equal; exact IH. Qed.

Lemma forallb_false : forall {A} (f : A -> bool) l, forallb f l = false -> exists x, In x l /\ f x = false.
Proof.
  induction l as [|a r IH]; simpl; [discriminate|]. intros H. destruct (f a) eqn:E; [|exists a; auto].
  destruct (IH H) as (x & Hx & Ex); exists x; auto.
Qed.

Lemma ends_declared_iff : forall g edges, ends_declared g edges = true <->
  forall u v k c, In ((u, v, k), c) edges -> is_node g u /\ is_node g v.
Proof.
  intros g edges; unfold ends_declared; rewrite forallb_forall; split.
  - intros H u v k c Hin. specialize (H _ Hin); simpl in H. apply andb_true_iff in H; rewrite !has_node_true in H; exact H.
  - intros H [[[u v] k] c] Hin. apply andb_true_iff; rewrite !has_node_true. exact (H u v k c Hin).
Qed.

Lemma init_connects : forall nodes edges, NoDup (map fst nodes) -> forall u v,
  connects (init_edges (init_nodes nodes) edges) u v <-> wants edges u v.
Proof.
  intros nodes edges ND u v.
  pose proof (init_edges_connections edges (init_nodes nodes)) as P.
  replace (connections (init_nodes nodes)) with (@nil (node * node * comp)) in P by (rewrite init_nodes_eq by exact ND; reflexivity).
  simpl in P. split.
  - intros (e & He & Es & Ed).
    assert (H : In (u, v, e_model (e_dat e)) (connections (init_edges (init_nodes nodes) edges))).
    { unfold connections; apply in_map_iff; exists e; split; [unfold connection; congruence|exact He]. }
    apply (Permutation_in _ P) in H. apply in_map_iff in H; destruct H as ([[[a b] k] c] & E & H).
    injection E as -> -> _. exists k, c; exact H.
  - intros (k & c & H).
    assert (H' : In (u, v, c) (connections (init_edges (init_nodes nodes) edges))).
    { apply (Permutation_in _ (Permutation_sym P)). apply in_map_iff; exists ((u, v, k), c); split; [reflexivity|exact H]. }
    unfold connections in H'; apply in_map_iff in H'; destruct H' as (e & E & He). unfold connection in E; injection E as E1 E2 _.
    exists e; auto.
Qed.

Lemma wants_cycle_iff : forall nodes edges, NoDup (map fst nodes) ->
  (acyclic (init_edges (init_nodes nodes) edges) <-> ~ wants_cycle edges).
Proof.
  intros nodes edges ND. pose proof (init_connects nodes edges ND) as C.
  assert (M : forall a b, path1 (init_edges (init_nodes nodes) edges) a b <-> clos_trans node (wants edges) a b).
  { intros a b; split; intros H; induction H as [x y H|x y z _ IH1 _ IH2];
      solve [apply t_step, C, H|eapply t_trans; eassumption]. }
  unfold acyclic, wants_cycle; split.
  - intros H (n & Hn); apply (H n), M, Hn.
  - intros H n Hn; apply H; exists n; apply M, Hn.
Qed.

Lemma init_graph_spec : forall nodes edges, NoDup (map fst nodes) ->
  match init_graph nodes edges with
  | Some g =>
      wf g /\ acyclic g /\
      node_models_of g = nodes /\
      (forall u v, between g u v = numbered (requested edges u v)) /\
      Permutation (connections g) (map (fun p => match p with ((u, v, _), c) => (u, v, c) end) edges)
  | None => wants_cycle edges
            \/ (exists u v k c, In ((u, v, k), c) edges /\ (~ declared nodes u \/ ~ declared nodes v))
            \/ (exists n c, In (n, c) nodes /\ ~ can_be_node c)
  end.
Proof.
  intros nodes edges ND. unfold init_graph.
  assert (Dec : forall n, is_node (init_nodes nodes) n <-> declared nodes n).
  { intros n; rewrite <- node_ids_is_node, init_nodes_ids by exact ND; reflexivity. }
  destruct (ends_declared (init_nodes nodes) edges) eqn:D; cbn [andb].
  - destruct (forallb (fun p => has_update (ccls (snd p))) nodes) eqn:U.
    + assert (W : wf (init_edges (init_nodes nodes) edges)).
      { apply init_edges_wf; [apply init_nodes_wf; exact ND|apply ends_declared_iff; exact D]. }
      pose proof (topological_sort_spec _ W) as T.
      destruct (topological_sort (init_edges (init_nodes nodes) edges)) as [o|] eqn:Eo.
      * split; [exact W|]. split; [apply toposort_iff; [exact W|exists o; exact Eo]|]. split; [|split].
        -- unfold node_models_of; rewrite init_edges_nodes, init_nodes_eq by exact ND. simpl. rewrite map_map; simpl.
           rewrite <- (map_id nodes) at 2. apply map_ext; intros [n c]; reflexivity.
        -- intros u v. rewrite (combine_split_map (between _ u v)). unfold numbered.
           pose proof (init_edges_models edges (init_nodes nodes) u v) as M.
           replace (between (init_nodes nodes) u v) with (@nil (key * comp)) in M by (rewrite init_nodes_eq by exact ND; reflexivity).
           simpl in M. rewrite M. f_equal.
           assert (C : consec (g_edges (init_edges (init_nodes nodes) edges))).
           { apply init_edges_consec. rewrite init_nodes_eq by exact ND. intros a b; reflexivity. }
           specialize (C u v). unfold between. rewrite map_map; cbn [fst].
           change (map (fun x : edge => e_key x) (filter (fun e : edge => Nat.eqb (e_src e) u && Nat.eqb (e_dst e) v) (g_edges (init_edges (init_nodes nodes) edges))))
             with (pair_keys (g_edges (init_edges (init_nodes nodes) edges)) u v).
           rewrite C. f_equal. rewrite <- M. unfold between, pair_keys. rewrite !map_length. reflexivity.
        -- pose proof (init_edges_connections edges (init_nodes nodes)) as P.
           replace (connections (init_nodes nodes)) with (@nil (node * node * comp)) in P by (rewrite init_nodes_eq by exact ND; reflexivity).
           exact P.
      * left. destruct T as [n Hn]. exists n.
        assert (M : forall a b, path1 (init_edges (init_nodes nodes) edges) a b -> clos_trans node (wants edges) a b).
        { intros a b H; induction H as [x y H|x y z _ IH1 _ IH2];
            [apply t_step, (init_connects nodes edges ND), H|eapply t_trans; eassumption]. }
        apply M; exact Hn.
    + right; right. apply forallb_false in U; destruct U as ([n c] & Hin & U). exists n, c; split; [exact Hin|].
      unfold can_be_node; simpl in U; unfold has_update in U. intros [E|[E|E]]; rewrite E in U; discriminate.
  - right; left. unfold ends_declared in D. apply forallb_false in D; destruct D as ([[[u v] k] c] & Hin & D).
    exists u, v, k, c; split; [exact Hin|]. rewrite <- !Dec, <- !has_node_true.
    apply andb_false_iff in D; destruct D as [D|D]; rewrite D; [left|right]; discriminate.
Qed.

Lemma init_graph_raises_iff : forall nodes edges, NoDup (map fst nodes) ->
  (init_graph nodes edges = None <->
   wants_cycle edges
   \/ (exists u v k c, In ((u, v, k), c) edges /\ (~ declared nodes u \/ ~ declared nodes v))
   \/ (exists n c, In (n, c) nodes /\ ~ can_be_node c)).
Proof.
  intros nodes edges ND; pose proof (init_graph_spec nodes edges ND) as S.
  assert (Dec : forall n, is_node (init_nodes nodes) n <-> declared nodes n).
  { intros n; rewrite <- node_ids_is_node, init_nodes_ids by exact ND; reflexivity. }
  split; [intros E; rewrite E in S; exact S|].
  intros [Cy|[(u & v & k & c & Hin & Un)|(n & c & Hin & Un)]]; unfold init_graph in *.
  - destruct (ends_declared (init_nodes nodes) edges && forallb (fun p => has_update (ccls (snd p))) nodes) eqn:B; [|reflexivity].
    destruct (topological_sort (init_edges (init_nodes nodes) edges)); [|reflexivity].
    destruct S as (_ & A & _). apply (wants_cycle_iff nodes edges ND) in A; contradiction.
  - destruct (ends_declared (init_nodes nodes) edges) eqn:D; [|reflexivity]. exfalso.
    destruct (proj1 (ends_declared_iff _ _) D u v k c Hin) as [Nu Nv]; rewrite Dec in Nu, Nv; tauto.
  - destruct (forallb (fun p => has_update (ccls (snd p))) nodes) eqn:U; [|rewrite andb_false_r; reflexivity]. exfalso.
    rewrite forallb_forall in U; specialize (U _ Hin); simpl in U. apply Un. unfold has_update in U; unfold can_be_node.
    destruct (family_of (ccls c)); try discriminate; tauto.
Qed.

Lemma init_graph_some : forall nodes edges g, NoDup (map fst nodes) -> init_graph nodes edges = Some g ->
  wf g /\ acyclic g /\ node_models_of g = nodes /\
  (forall u v, between g u v = numbered (requested edges u v)) /\
  Permutation (connections g) (map (fun p => match p with ((u, v, _), c) => (u, v, c) end) edges).
Proof. intros nodes edges g ND E; pose proof (init_graph_spec nodes edges ND) as S; rewrite E in S; exact S. Qed.
