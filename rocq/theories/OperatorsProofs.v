(** Lemmas about the evolution operators. *)
From Coq Require Import List Arith Bool Lia Relations Permutation.
From Verif Require Import GraphModel GraphSpec GraphProofs TopoProofs OperatorsModel OperatorsSpec.
Import ListNotations.

Definition triple (e : edge) : node * node * edata := (e_src e, e_dst e, e_dat e).
Definition triples (g : graph) : list (node * node * edata) := map triple (g_edges g).
Definition redir (u v : node) (t : node * node * edata) : node * node * edata :=
  match t with (a, b, d) => (merge u v a, merge u v b, d) end.

Lemma connects_triples : forall g u v, connects g u v <-> exists d, In (u, v, d) (triples g).
Proof.
  intros g u v; unfold connects, triples; split.
  - intros (e & He & <- & <-); exists (e_dat e); apply in_map_iff; exists e; auto.
  - intros (d & H); apply in_map_iff in H; destruct H as (e & E & He); injection E as <- <- _; exists e; auto.
Qed.

Lemma add_edge_triples : forall g u v d, Permutation (triples (add_edge g u v d)) ((u, v, d) :: triples g).
Proof. intros; unfold triples; eapply Permutation_trans; [apply Permutation_map, add_edge_edges|apply Permutation_refl]. Qed.

Definition add_edges (g : graph) (ts : list (node * node * edata)) : graph :=
  fold_left (fun g t => match t with (a, b, d) => add_edge g a b d end) ts g.

Lemma add_edges_nodes : forall ts g, g_nodes (add_edges g ts) = g_nodes g.
Proof. induction ts as [|[[a b] d] ts IH]; intros g; simpl; [reflexivity|]. rewrite IH; reflexivity. Qed.

Lemma add_edges_triples : forall ts g, Permutation (triples (add_edges g ts)) (ts ++ triples g).
Proof.
  induction ts as [|[[a b] d] ts IH]; intros g; simpl; [apply Permutation_refl|].
  eapply Permutation_trans; [apply IH|].
  eapply Permutation_trans; [apply Permutation_app_head; apply add_edge_triples|].
  apply Permutation_sym, Permutation_middle.
Qed.

Lemma is_node_nodes : forall g g' n, g_nodes g = g_nodes g' -> (is_node g n <-> is_node g' n).
Proof. intros g g' n E; unfold is_node; rewrite E; tauto. Qed.

Lemma add_edges_keep : forall ts g x, In x (g_edges g) -> In x (g_edges (add_edges g ts)).
Proof.
  induction ts as [|[[a b] d] ts IH]; intros g x Hx; simpl; [exact Hx|].
  apply IH; apply In_add_edge; right; exact Hx.
Qed.

Lemma new_key_zero : forall es u v, (forall e, In e es -> ~ (e_src e = u /\ e_dst e = v)) -> new_edge_key es u v = 0.
Proof.
  intros es u v H; unfold new_edge_key, pair_keys. rewrite filter_nil; [reflexivity|].
  intros e He; destruct (same_pair u v e) eqn:E; [|reflexivity]. apply same_pair_true in E; exfalso; exact (H e He E).
Qed.

Lemma add_edges_wf : forall ts g, wf g ->
  (forall a b d, In (a, b, d) ts -> is_node g a /\ is_node g b) -> wf (add_edges g ts).
Proof.
  induction ts as [|[[a b] d] ts IH]; intros g W H; simpl; [exact W|].
  apply IH.
  - destruct (H a b d (or_introl eq_refl)); apply wf_add_edge; assumption.
  - intros a' b' d' Hin; exact (H a' b' d' (or_intror Hin)).
Qed.

(** ** Contraction *)

Lemma three_way : forall (es : list edge) (u v : node), u <> v ->
  (forall e, In e es -> ~ (e_src e = v /\ e_dst e = v)) ->
  (forall e, In e es -> ~ (e_src e = u /\ e_dst e = v)) ->
  (forall e, In e es -> ~ (e_src e = v /\ e_dst e = u)) ->
  Permutation
    ((map (fun e => ((if Nat.eqb (e_src e) v then u else e_src e), u, e_dat e))
        (filter (fun e => negb (Nat.eqb (e_src e) u)) (filter (fun e => Nat.eqb (e_dst e) v) es)) ++
      map (fun e => (u, (if Nat.eqb (e_dst e) v then u else e_dst e), e_dat e))
        (filter (fun e => negb (Nat.eqb (e_dst e) u)) (filter (fun e => Nat.eqb (e_src e) v) es))) ++
     map triple (filter (fun e => negb (Nat.eqb (e_src e) v) && negb (Nat.eqb (e_dst e) v)) es))
    (map (redir u v) (map triple es)).
Proof.
  intros es u v Huv; induction es as [|e r IH]; intros H1 H2 H3; [constructor|].
  assert (IH' : Permutation _ _) by (apply IH; intros x Hx; [apply H1|apply H2|apply H3]; right; exact Hx).
  clear IH. specialize (H1 e (or_introl eq_refl)); specialize (H2 e (or_introl eq_refl)); specialize (H3 e (or_introl eq_refl)).
  cbn [map filter triple redir]. unfold merge at 1 2.
  destruct (Nat.eqb_spec (e_dst e) v) as [Ed|Ed].
  - destruct (Nat.eqb_spec (e_src e) v) as [Es|Es]; [exfalso; apply H1; auto|]. cbn [negb andb].
    cbn [filter]. destruct (Nat.eqb_spec (e_src e) u) as [Eu|Eu]; [exfalso; apply H2; auto|]. cbn [negb map].
    destruct (Nat.eqb_spec (e_src e) v); [contradiction|]. simpl app. constructor. exact IH'.
  - destruct (Nat.eqb_spec (e_src e) v) as [Es|Es]; cbn [negb andb filter].
    + destruct (Nat.eqb_spec (e_dst e) u) as [Eu|Eu]; [exfalso; apply H3; auto|]. cbn [negb map].
      destruct (Nat.eqb_spec (e_dst e) v); [contradiction|].
      eapply Permutation_trans; [|constructor; exact IH'].
      rewrite <- !app_assoc. simpl app. apply Permutation_sym, Permutation_middle.
    + cbn [map]. eapply Permutation_trans; [|constructor; exact IH'].
      apply Permutation_sym, Permutation_middle.
Qed.

Lemma contract_unfold : forall g u v, contract g u v = add_edges (remove_node g v) (contracted_edges g u v).
Proof. reflexivity. Qed.

Lemma contract_triples : forall g u v, u <> v ->
  (forall e, In e (g_edges g) -> ~ (e_src e = v /\ e_dst e = v)) ->
  (forall e, In e (g_edges g) -> ~ (e_src e = u /\ e_dst e = v)) ->
  (forall e, In e (g_edges g) -> ~ (e_src e = v /\ e_dst e = u)) ->
  Permutation (triples (contract g u v)) (map (redir u v) (triples g)).
Proof.
  intros g u v Huv H1 H2 H3; rewrite contract_unfold.
  eapply Permutation_trans; [apply add_edges_triples|].
  unfold triples, contracted_edges, nx_in_edges, nx_out_edges; cbn [g_edges remove_node].
  apply three_way; assumption.
Qed.

Lemma contract_nodes : forall g u v, g_nodes (contract g u v) = filter (fun p => negb (Nat.eqb (fst p) v)) (g_nodes g).
Proof. intros; rewrite contract_unfold, add_edges_nodes; reflexivity. Qed.

Lemma contract_wf : forall g u v, wf g -> is_node g u -> u <> v -> wf (contract g u v).
Proof.
  intros g u v W Hu Huv; rewrite contract_unfold; apply add_edges_wf; [apply wf_remove_node; exact W|].
  intros a b d H; unfold contracted_edges in H; apply in_app_or in H.
  assert (Hu' : is_node (remove_node g v) u) by (apply is_node_remove_node; auto).
  destruct H as [H|H]; apply in_map_iff in H; destruct H as (e & E & H); injection E as <- <- <-;
    apply filter_In in H; destruct H as [H _]; apply filter_In in H; destruct H as [H _];
    destruct (wf_ends g W e H) as [Ha Hb]; split; try exact Hu'.
  - destruct (Nat.eqb_spec (e_src e) v); [exact Hu'|apply is_node_remove_node; auto].
  - destruct (Nat.eqb_spec (e_dst e) v); [exact Hu'|apply is_node_remove_node; auto].
Qed.

Lemma wf_set_node_data : forall g n d, wf g -> wf (set_node_data g n d).
Proof.
  intros g n d [H1 H2 H3]; constructor; simpl; [rewrite set_assoc_fst; exact H1| |exact H3].
  intros e He; destruct (H2 e He) as [Ha Hb].
  split; apply In_fst_ex; simpl; rewrite set_assoc_fst; apply In_fst_ex; assumption.
Qed.

Lemma set_edge_data_id : forall g i d, map e_id (g_edges (set_edge_data g i d)) = map e_id (g_edges g).
Proof.
  intros g i d; simpl; rewrite map_map; apply map_ext; intros e; destruct (eid_eqb (e_id e) i); reflexivity.
Qed.

Lemma wf_set_edge_data : forall g i d, wf g -> wf (set_edge_data g i d).
Proof.
  intros g i d [H1 H2 H3]; constructor; [exact H1| |].
  - intros e He; simpl in He; apply in_map_iff in He; destruct He as (e0 & E & He).
    destruct (H2 e0 He); destruct (eid_eqb (e_id e0) i); subst e; split; assumption.
  - change (NoDup (map e_id (g_edges (set_edge_data g i d)))); rewrite set_edge_data_id; exact H3.
Qed.

Lemma set_edge_data_perm : forall g e d, wf g -> In e (g_edges g) ->
  Permutation (g_edges (set_edge_data g (e_id e) d))
              (mkE (e_src e) (e_dst e) (e_key e) d :: g_edges (remove_edge g (e_id e))).
Proof.
  intros g e d W He; simpl.
  pose proof (wf_keys g W) as ND. change (NoDup (map e_id (g_edges g))) in ND.
  induction (g_edges g) as [|x r IH]; [contradiction|].
  simpl in ND; inversion ND as [|? ? Hn Hr]; subst; simpl.
  destruct He as [->|He].
  - rewrite eid_eqb_refl; simpl. constructor. rewrite filter_true.
    + apply Permutation_refl'. rewrite <- (map_id r) at 2. apply map_ext_in; intros y Hy.
      destruct (eid_eqb (e_id y) (e_id e)) eqn:E; [|reflexivity].
      apply eid_eqb_eq in E; exfalso; apply Hn; rewrite <- E; apply in_map; exact Hy.
    + intros y Hy; apply negb_true_iff, eid_eqb_neq; intros E; apply Hn; rewrite <- E; apply in_map; exact Hy.
  - destruct (eid_eqb (e_id x) (e_id e)) eqn:E; simpl.
    + apply eid_eqb_eq in E; exfalso; apply Hn; rewrite E; apply in_map; exact He.
    + eapply Permutation_trans; [constructor; apply IH; assumption|apply perm_swap].
Qed.

(** ** Locations *)

Lemma In_interfaces : forall g n i, wf g -> (In (LIface n i) (interfaces g) <->
  exists e, In e (g_edges g) /\ i = e_id e /\
    ((n = e_src e /\ in_degree g (e_src e) <> 0) \/ (n = e_dst e /\ out_degree g (e_dst e) <> 0))).
Proof.
  intros g n i W; unfold interfaces; rewrite in_app_iff, !in_map_iff; split.
  - intros [(e & E & H)|(e & E & H)]; injection E as <- <-; apply filter_In in H; destruct H as [H N];
      apply negb_true_iff, Nat.eqb_neq in N; apply (In_edges_view g e W) in H; exists e; auto 6.
  - intros (e & He & -> & [[-> N]|[-> N]]); [left|right]; exists e; (split; [reflexivity|]); apply filter_In;
      (split; [apply In_edges_view; assumption|apply negb_true_iff, Nat.eqb_neq; exact N]).
Qed.

Lemma interfaces_shape : forall g l, In l (interfaces g) -> exists n i, l = LIface n i.
Proof.
  intros g l H; unfold interfaces in H; apply in_app_or in H; destruct H as [H|H];
    apply in_map_iff in H; destruct H as (e & <- & _); eauto.
Qed.

Lemma combinations2_In : forall {A} (l : list A) a b, In (a, b) (combinations2 l) <->
  exists l1 l2 l3, l = l1 ++ a :: l2 ++ b :: l3.
Proof.
  intros A l a b; induction l as [|x r IH]; simpl.
  - split; [tauto|]. intros ([|? ?] & ? & ? & E); discriminate.
  - rewrite in_app_iff, in_map_iff, IH; split.
    + intros [(y & E & H)|(l1 & l2 & l3 & ->)].
      * injection E as -> ->. apply in_split in H; destruct H as (l2 & l3 & ->). exists [], l2, l3; reflexivity.
      * exists (x :: l1), l2, l3; reflexivity.
    + intros ([|y l1] & l2 & l3 & E); simpl in E; injection E as -> ->.
      * left; exists b; split; [reflexivity|]. apply in_or_app; right; left; reflexivity.
      * right; exists l1, l2, l3; reflexivity.
Qed.

Lemma filter_order : forall {A} (f : A -> bool) l l1 a l2 b l3, filter f l = l1 ++ a :: l2 ++ b :: l3 ->
  exists m1 m2 m3, l = m1 ++ a :: m2 ++ b :: m3.
Proof.
  intros A f l l1 a l2 b l3 E.
  assert (S1 : forall l l1 a l2, filter f l = l1 ++ a :: l2 -> exists m1 m2, l = m1 ++ a :: m2 /\ filter f m2 = l2).
  { clear. induction l as [|x r IH]; intros l1 a l2 E; simpl in E; [destruct l1; discriminate|].
    destruct (f x).
    - destruct l1 as [|y l1]; simpl in E; injection E as -> E; [exists [], r; auto|].
      destruct (IH _ _ _ E) as (m1 & m2 & -> & F); exists (y :: m1), m2; auto.
    - destruct (IH _ _ _ E) as (m1 & m2 & -> & F); exists (x :: m1), m2; auto. }
  destruct (S1 _ _ _ _ E) as (m1 & m2 & -> & F).
  destruct (S1 _ _ _ _ F) as (m3 & m4 & -> & _).
  exists m1, m3, m4; reflexivity.
Qed.

(* an offered pair: both ends inner, unprotected, with free ports, and first before second *)
Lemma In_parallel : forall g locs l, wf g -> parallel_locations g = Some locs -> In l locs ->
  exists a b, l = LPair a b /\ is_node g a /\ is_node g b /\
    parallel_node_ok g a = true /\ parallel_node_ok g b = true /\ a <> b /\
    exists o, valid_order g o /\ index_of a o < index_of b o.
Proof.
  intros g locs l W E H; unfold parallel_locations in E.
  pose proof (topological_sort_spec g W) as T; destruct (topological_sort g) as [o|]; [|discriminate].
  injection E as <-. apply in_map_iff in H; destruct H as ([a b] & <- & H); simpl.
  assert (Hab : In a (filter (parallel_node_ok g) o) /\ In b (filter (parallel_node_ok g) o)).
  { apply combinations2_In in H; destruct H as (l1 & l2 & l3 & ->). split; apply in_or_app; right; [left; reflexivity|].
    right; apply in_or_app; right; left; reflexivity. }
  destruct Hab as [Ha Hb]; apply filter_In in Ha; apply filter_In in Hb.
  destruct Ha as [Ha Oa]; destruct Hb as [Hb Ob].
  assert (ND : NoDup o) by (eapply Permutation_NoDup; [apply Permutation_sym; exact (proj1 T)|exact (wf_nodes g W)]).
  apply combinations2_In in H; destruct H as (l1 & l2 & l3 & H). apply filter_order in H.
  destruct H as (m1 & m2 & m3 & ->).
  assert (Idx : index_of a (m1 ++ a :: m2 ++ b :: m3) < index_of b (m1 ++ a :: m2 ++ b :: m3)).
  { apply index_of_split; [exact ND|]. apply in_or_app; right; left; reflexivity. }
  exists a, b; split; [reflexivity|].
  split; [apply node_ids_is_node; eapply Permutation_in; [exact (proj1 T)|exact Ha]|].
  split; [apply node_ids_is_node; eapply Permutation_in; [exact (proj1 T)|exact Hb]|].
  split; [exact Oa|]. split; [exact Ob|]. split; [intros ->; lia|]. exists (m1 ++ a :: m2 ++ b :: m3); auto.
Qed.

Lemma node_protected_false : forall g n d, node_data g n = Some d -> (node_protected g n = false <-> cprot (n_model d) = false).
Proof. intros g n d E; unfold node_protected; rewrite E; tauto. Qed.

Lemma In_remove_locations : forall g l, wf g -> In l (remove_locations g) ->
  exists n e du dv, l = LIface n (e_id e) /\ In e (g_edges g) /\ (n = e_src e \/ n = e_dst e) /\
    in_degree g (e_src e) <> 0 /\ out_degree g (e_dst e) <> 0 /\
    cprot (e_model (e_dat e)) = false /\
    node_data g (e_src e) = Some du /\ cprot (n_model du) = false /\
    node_data g (e_dst e) = Some dv /\ cprot (n_model dv) = false.
Proof.
  intros g l W H; unfold remove_locations in H; apply filter_In in H; destruct H as [H R].
  destruct (interfaces_shape g l H) as (n & i & ->).
  apply (In_interfaces g n i W) in H; destruct H as (e & He & -> & Hn).
  unfold remove_ok in R. unfold e_id in R at 1. cbv beta iota in R.
  fold (e_id e) in R. rewrite (In_find_edge g e W He) in R.
  rewrite !andb_true_iff, !negb_true_iff, !Nat.eqb_neq in R. destruct R as ((((R1 & R2) & R3) & R4) & R5).
  destruct (wf_ends g W e He) as [Ns Nd].
  destruct (node_data_ex g _ Ns) as [du Du]; destruct (node_data_ex g _ Nd) as [dv Dv].
  apply (node_protected_false g _ du Du) in R4. apply (node_protected_false g _ dv Dv) in R5.
  exists n, e, du, dv. repeat split; try assumption. destruct Hn as [[-> _]|[-> _]]; auto.
Qed.

Lemma In_swap_locations : forall L g l, wf g -> In l (swap_locations L g) ->
  (exists n d, l = LNode n /\ node_data g n = Some d /\ cprot (n_model d) = false /\
      in_degree g n <> 0 /\ out_degree g n <> 0 /\ 1 < length (node_models L)) \/
  (exists e, l = LEdge (e_id e) /\ In e (g_edges g) /\ cprot (e_model (e_dat e)) = false /\
      1 < length (edge_swap_models L g (e_src e) (e_dst e))).
Proof.
  intros L g l W H; unfold swap_locations in H; apply in_app_or in H; destruct H as [H|H];
    apply in_map_iff in H; destruct H as (x & <- & H); apply filter_In in H; destruct H as [H R].
  - left. rewrite !andb_true_iff, !negb_true_iff, !Nat.eqb_neq in R. destruct R as (((R1 & R2) & R3) & R4).
    apply node_ids_is_node in H; destruct (node_data_ex g x H) as [d D].
    exists x, d. apply (node_protected_false g x d D) in R1. unfold swap_possible_node in R4; apply Nat.ltb_lt in R4. auto 8.
  - right. rewrite andb_true_iff, negb_true_iff in R. destruct R as [R1 R2].
    unfold swap_possible_edge in R2; apply Nat.ltb_lt in R2. apply (In_edges_view g x W) in H. exists x; auto.
Qed.

Lemma swap_set_nonempty : forall models c, NoDup models -> 1 < length models -> swap_set models c <> [].
Proof.
  intros models c ND L H. destruct models as [|a [|b r]]; simpl in L; try lia.
  assert (Hab : a <> b). { inversion ND as [|? ? Hn _]; subst; intros ->; apply Hn; left; reflexivity. }
  unfold swap_set in H; simpl in H.
  destruct (cls_eqb a c) eqn:Ea; simpl in H; [|discriminate].
  destruct (cls_eqb b c) eqn:Eb; simpl in H; [|discriminate].
  apply cls_eqb_eq in Ea; apply cls_eqb_eq in Eb; congruence.
Qed.

Lemma In_swap_set : forall models c x, In x (swap_set models c) <-> In x models /\ x <> c.
Proof.
  intros models c x; unfold swap_set; rewrite filter_In, negb_true_iff; split; intros [H1 H2]; split; try assumption.
  - intros ->. rewrite (proj2 (cls_eqb_eq c c) eq_refl) in H2; discriminate.
  - destruct (cls_eqb x c) eqn:E; [apply cls_eqb_eq in E; contradiction|reflexivity].
Qed.

(** ** The effect of one step, up to the order of the edge list and the keys *)

Inductive effect (L : library) (g : graph) : op -> graph -> Prop :=
| eff_series : forall e nid nn ne (left : bool) g',
    In e (g_edges g) ->
    (if left then in_degree g (e_src e) <> 0 else out_degree g (e_dst e) <> 0) ->
    ~ is_node g nid ->
    In (ccls ne) (edge_models L) -> cprot ne = false ->
    In (ccls nn) (node_models L) -> cprot nn = false ->
    ~ In (cid ne) (used_ids g) -> ~ In (cid nn) (used_ids g) -> cid ne <> cid nn ->
    g_nodes g' = g_nodes g ++ [(nid, fresh_ndata nn)] ->
    Permutation (g_edges g')
      (mkE (e_src e) nid 0 (if left then fresh_edata ne else e_dat e) ::
       mkE nid (e_dst e) 0 (if left then e_dat e else fresh_edata ne) ::
       g_edges (remove_edge g (e_id e))) ->
    effect L g AddSeries g'
| eff_parallel : forall a b ne o g',
    is_node g a -> is_node g b -> a <> b ->
    parallel_node_ok g a = true -> parallel_node_ok g b = true ->
    valid_order g o -> index_of a o < index_of b o ->
    In (ccls ne) (edge_models L) -> cprot ne = false -> ~ In (cid ne) (used_ids g) ->
    g_nodes g' = g_nodes g ->
    Permutation (g_edges g') (mkE a b (new_edge_key (g_edges g) a b) (fresh_edata ne) :: g_edges g) ->
    effect L g AddParallel g'
| eff_remove : forall e du dv,
    In e (g_edges g) ->
    in_degree g (e_src e) <> 0 -> out_degree g (e_dst e) <> 0 ->
    cprot (e_model (e_dat e)) = false ->
    node_data g (e_src e) = Some du -> cprot (n_model du) = false ->
    node_data g (e_dst e) = Some dv -> cprot (n_model dv) = false ->
    path (remove_edge g (e_id e)) (e_src e) (e_dst e) ->
    effect L g Remove (remove_edge g (e_id e))
| eff_merge : forall e n du dv save g',
    In e (g_edges g) -> (n = e_src e \/ n = e_dst e) ->
    in_degree g (e_src e) <> 0 -> out_degree g (e_dst e) <> 0 ->
    cprot (e_model (e_dat e)) = false ->
    node_data g (e_src e) = Some du -> cprot (n_model du) = false ->
    node_data g (e_dst e) = Some dv -> cprot (n_model dv) = false ->
    ~ path (remove_edge g (e_id e)) (e_src e) (e_dst e) ->
    node_data g n = Some save ->
    g_nodes g' = set_assoc (e_src e) save (filter (fun p => negb (Nat.eqb (fst p) (e_dst e))) (g_nodes g)) ->
    Permutation (triples g')
      (map (redir (e_src e) (e_dst e)) (triples (remove_edge g (e_id e)))) ->
    (forall x, In x (g_edges g) -> x <> e -> e_src x <> e_dst e -> e_dst x <> e_dst e -> In x (g_edges g')) ->
    effect L g Remove g'
| eff_swap_none : effect L g Swap g
| eff_swap_node : forall n d c,
    node_data g n = Some d -> cprot (n_model d) = false ->
    in_degree g n <> 0 -> out_degree g n <> 0 ->
    In (ccls c) (node_models L) -> ccls c <> ccls (n_model d) ->
    cprot c = false -> ~ In (cid c) (used_ids g) ->
    effect L g Swap (set_node_data g n (mkND c (n_name d)))
| eff_swap_edge : forall e c,
    In e (g_edges g) -> cprot (e_model (e_dat e)) = false ->
    In (ccls c) (edge_swap_models L g (e_src e) (e_dst e)) -> ccls c <> ccls (e_model (e_dat e)) ->
    cprot c = false -> ~ In (cid c) (used_ids g) ->
    effect L g Swap (set_edge_data g (e_id e) (mkED c (e_name (e_dat e)))).

Lemma acyclic_no_loop : forall g e, acyclic g -> In e (g_edges g) -> e_src e <> e_dst e.
Proof.
  intros g e A He E; apply (A (e_src e)); apply t_step; exists e; auto.
Qed.

Lemma apply_op_total : forall L o g l d locs, wf g ->
  possible_locations L o g = Some locs -> In l locs ->
  exists g', apply_op L o g l d = Some g'.
Proof.
  intros L o g l d locs W E H; destruct o; simpl in E.
  - injection E as <-. destruct (interfaces_shape g l H) as (n & i & ->).
    apply (In_interfaces g n i W) in H; destruct H as (e & He & -> & Hn). simpl.
    unfold apply_series. rewrite (In_find_edge g e W He).
    destruct (Nat.eqb n (e_src e)); eexists; reflexivity.
  - destruct (In_parallel g locs l W E H) as (a & b & -> & Ha & Hb & _). simpl; unfold apply_parallel.
    rewrite (proj2 (has_node_true g a) Ha), (proj2 (has_node_true g b) Hb). eexists; reflexivity.
  - injection E as <-. destruct (In_remove_locations g l W H) as (n & e & du & dv & -> & He & Hn & _ & _ & _ & Du & _ & Dv & _).
    simpl; unfold apply_remove. rewrite (In_find_edge g e W He).
    destruct (has_path _ _ _); [eexists; reflexivity|].
    unfold node_data in *; cbn [g_nodes remove_edge]. destruct Hn as [->| ->]; rewrite ?Du, ?Dv; eexists; reflexivity.
  - injection E as <-. destruct (In_swap_locations L g l W H) as [(n & nd & -> & D & _)|(e & -> & He & _)]; simpl.
    + unfold apply_swap_node; rewrite D. destruct (swap_set _ _); eexists; reflexivity.
    + unfold apply_swap_edge; rewrite (In_find_edge g e W He). destruct (swap_set _ _); eexists; reflexivity.
Qed.

Lemma acyclic_remove_edge : forall g i, acyclic g -> acyclic (remove_edge g i).
Proof.
  intros g i A; apply (acyclic_sub g); [|exact A].
  intros u v (e & He & Es & Ed); apply In_remove_edge in He; exists e; tauto.
Qed.

Lemma path_remove_edge : forall g i x y, path (remove_edge g i) x y -> path g x y.
Proof.
  intros g i x y; apply path_mono.
  intros u v (e & He & Es & Ed); apply In_remove_edge in He; exists e; tauto.
Qed.

(* facts needed to contract the ends of a removed edge *)
Lemma merge_facts : forall g e, acyclic g -> In e (g_edges g) ->
  let g1 := remove_edge g (e_id e) in
  ~ path g1 (e_src e) (e_dst e) ->
  (forall x, In x (g_edges g1) -> ~ (e_src x = e_dst e /\ e_dst x = e_dst e)) /\
  (forall x, In x (g_edges g1) -> ~ (e_src x = e_src e /\ e_dst x = e_dst e)) /\
  (forall x, In x (g_edges g1) -> ~ (e_src x = e_dst e /\ e_dst x = e_src e)).
Proof.
  intros g e A He g1 NP; repeat split; intros x Hx [Ex1 Ex2].
  - apply In_remove_edge in Hx; destruct Hx as [Hx _]. apply (acyclic_no_loop g x A Hx); congruence.
  - apply NP; apply rt_step; exists x; auto.
  - apply In_remove_edge in Hx; destruct Hx as [Hx _]. apply (A (e_src e)).
    eapply t_trans; [apply t_step; exists e; split; [exact He|auto]|apply t_step; exists x; auto].
Qed.

Lemma step_effect : forall L g o g', wf g -> acyclic g -> evo_step L g o g' -> wf g' /\ effect L g o g'.
Proof.
  intros L g o g' W A H; destruct H as [g o l d locs g' E Hl Hd Ha].
  destruct o; simpl in E.
  - (* add series *)
    injection E as <-. destruct (interfaces_shape g l Hl) as (n & i & ->).
    apply (In_interfaces g n i W) in Hl; destruct Hl as (e & He & -> & Hn). simpl in Ha.
    unfold apply_series in Ha. rewrite (In_find_edge g e W He) in Ha.
    simpl in Hd; destruct Hd as (D1 & D2 & D3 & D4 & D5 & D6 & D7 & D8).
    assert (Fr : ~ is_node g (d_id d)) by (rewrite <- node_ids_is_node; exact D8).
    destruct (wf_ends g W e He) as [Ns Nd].
    pose proof (acyclic_no_loop g e A He) as NL.
    set (g2 := remove_edge (add_node g (d_id d) (fresh_ndata (d_node d))) (e_id e)) in *.
    assert (W2 : wf g2) by (apply wf_remove_edge, wf_add_node, W).
    assert (N2 : forall m, m = d_id d \/ is_node g m -> is_node g2 m).
    { intros m Hm. apply (is_node_add_node g (d_id d) (fresh_ndata (d_node d))). exact Hm. }
    assert (T2 : g_edges g2 = g_edges (remove_edge g (e_id e))).
    { unfold g2. rewrite (add_node_fresh g _ _ Fr). reflexivity. }
    assert (Out : forall x, In x (g_edges g2) -> e_src x <> d_id d /\ e_dst x <> d_id d).
    { rewrite T2; intros x Hx; apply In_remove_edge in Hx; destruct Hx as [Hx _].
      destruct (wf_ends g W x Hx) as [Na Nb]; split; intros Ex; apply Fr; rewrite <- Ex; assumption. }
    assert (G2 : g_nodes g2 = g_nodes g ++ [(d_id d, fresh_ndata (d_node d))]).
    { unfold g2. rewrite (add_node_fresh g _ _ Fr). reflexivity. }
    assert (Build : forall d1 d2,
      wf (add_edge (add_edge g2 (e_src e) (d_id d) d1) (d_id d) (e_dst e) d2) /\
      Permutation (g_edges (add_edge (add_edge g2 (e_src e) (d_id d) d1) (d_id d) (e_dst e) d2))
        (mkE (e_src e) (d_id d) 0 d1 :: mkE (d_id d) (e_dst e) 0 d2 :: g_edges (remove_edge g (e_id e)))).
    { intros d1 d2; split.
      - apply wf_add_edge; [apply wf_add_edge; [exact W2| |]| |].
        + exact (N2 _ (or_intror Ns)).
        + exact (N2 _ (or_introl eq_refl)).
        + exact (N2 _ (or_introl eq_refl)).
        + exact (N2 _ (or_intror Nd)).
      - eapply Permutation_trans; [apply add_edge_edges|].
        rewrite (new_key_zero _ (d_id d) (e_dst e)).
        + eapply Permutation_trans; [constructor; apply add_edge_edges|].
          rewrite (new_key_zero (g_edges g2) (e_src e) (d_id d)).
          * rewrite T2. apply perm_swap.
          * intros x Hx [_ Ex]; exact (proj2 (Out x Hx) Ex).
        + intros x Hx [Ex Ey]; apply In_add_edge in Hx; destruct Hx as [->|Hx]; [|exact (proj1 (Out x Hx) Ex)].
          simpl in Ex; apply Fr; rewrite <- Ex; exact Ns. }
    destruct (Nat.eqb_spec n (e_src e)) as [En|En].
    + injection Ha as <-. subst n. destruct (Build (fresh_edata (d_edge d)) (e_dat e)) as [Wg Pg]. split; [exact Wg|].
      eapply (eff_series L g e (d_id d) (d_node d) (d_edge d) true); try assumption.
      * destruct Hn as [[_ N]|[E N]]; [exact N|congruence].
    + injection Ha as <-. destruct Hn as [[E _]|[-> N]]; [congruence|].
      destruct (Build (e_dat e) (fresh_edata (d_edge d))) as [Wg Pg]. split; [exact Wg|].
      eapply (eff_series L g e (d_id d) (d_node d) (d_edge d) false); try assumption.
  - (* add parallel *)
    destruct (In_parallel g locs l W E Hl) as (a & b & -> & Na & Nb & Oa & Ob & Hab & o & V & I).
    simpl in Ha; unfold apply_parallel in Ha.
    rewrite (proj2 (has_node_true g a) Na), (proj2 (has_node_true g b) Nb) in Ha. injection Ha as <-.
    simpl in Hd; destruct Hd as (D1 & D2 & D3). split; [apply wf_add_edge; assumption|].
    eapply (eff_parallel L g a b (d_edge d) o); try assumption; [reflexivity|apply add_edge_edges].
  - (* remove *)
    injection E as <-.
    destruct (In_remove_locations g l W Hl) as (n & e & du & dv & -> & He & Hn & R1 & R2 & R3 & Du & Pu & Dv & Pv).
    simpl in Ha; unfold apply_remove in Ha. rewrite (In_find_edge g e W He) in Ha.
    assert (W1 : wf (remove_edge g (e_id e))) by (apply wf_remove_edge; exact W).
    destruct (has_path (remove_edge g (e_id e)) (e_src e) (e_dst e)) eqn:Hp.
    + injection Ha as <-. apply (has_path_iff _ _ _ W1) in Hp. split; [exact W1|].
      eapply eff_remove; eassumption.
    + apply (has_path_false _ _ _ W1) in Hp.
      assert (Sv : exists save, node_data g n = Some save) by (destruct Hn as [->| ->]; eauto).
      destruct Sv as [save Sv].
      change (node_data (remove_edge g (e_id e)) n) with (node_data g n) in Ha. rewrite Sv in Ha.
      injection Ha as <-.
      pose proof (acyclic_no_loop g e A He) as NL.
      destruct (merge_facts g e A He Hp) as (M1 & M2 & M3).
      destruct (wf_ends g W e He) as [Ns Nd].
      split.
      * apply wf_set_node_data, contract_wf; [exact W1|exact Ns|exact NL].
      * eapply (eff_merge L g e n du dv save); try eassumption.
        -- unfold set_node_data; cbn [g_nodes]. rewrite contract_nodes. reflexivity.
        -- change (triples (set_node_data (contract (remove_edge g (e_id e)) (e_src e) (e_dst e)) (e_src e) save))
             with (triples (contract (remove_edge g (e_id e)) (e_src e) (e_dst e))).
           apply contract_triples; assumption.
        -- intros x Hx Hne Hs Hd'. unfold set_node_data; cbn [g_edges]. rewrite contract_unfold.
           apply add_edges_keep. apply In_remove_node. split; [|split; assumption].
           apply In_remove_edge; split; [exact Hx|]. intros Ex; apply Hne.
           apply (NoDup_map_inj_In e_id (g_edges g)); [exact (wf_keys g W)|exact Hx|exact He|exact Ex].
  - (* swap *)
    injection E as <-. destruct (In_swap_locations L g l W Hl) as [(n & nd & -> & D & P & I & O & _)|(e & -> & He & P & _)]; simpl in Ha.
    + unfold apply_swap_node in Ha; rewrite D in Ha. simpl in Hd. destruct Hd as (D1 & D2 & D3).
      unfold node_cls in D1; rewrite D in D1. specialize (D1 _ eq_refl).
      destruct (swap_set (node_models L) (ccls (n_model nd))) as [|x r] eqn:Es.
      * injection Ha as <-. split; [exact W|constructor].
      * injection Ha as <-. split; [apply wf_set_node_data; exact W|].
        assert (Hx : In (ccls (d_swap d)) (swap_set (node_models L) (ccls (n_model nd)))) by (rewrite Es; apply D1; discriminate).
        apply In_swap_set in Hx; destruct Hx. apply eff_swap_node; assumption.
    + unfold apply_swap_edge in Ha; rewrite (In_find_edge g e W He) in Ha. simpl in Hd. destruct Hd as (D1 & D2 & D3).
      specialize (D1 e (In_find_edge g e W He)).
      destruct (swap_set (edge_swap_models L g (e_src e) (e_dst e)) (ccls (e_model (e_dat e)))) as [|x r] eqn:Es.
      * injection Ha as <-. split; [exact W|constructor].
      * injection Ha as <-. split; [apply wf_set_edge_data; exact W|].
        assert (Hx : In (ccls (d_swap d)) (swap_set (edge_swap_models L g (e_src e) (e_dst e)) (ccls (e_model (e_dat e)))))
          by (rewrite Es; apply D1; discriminate).
        apply In_swap_set in Hx; destruct Hx. apply eff_swap_edge; assumption.
Qed.
