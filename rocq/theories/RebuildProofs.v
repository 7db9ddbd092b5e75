(** Building a relabelled copy of a graph from its own node and edge lists. *)
From Coq Require Import List Arith Bool Lia Permutation Relations.
From Verif Require Import Base GraphModel GraphSpec GraphProofs TopoProofs InitSpec InitProofs ParamsModel ParamsSpec ParamsProofs SaveSpec OperatorsModel.
Import ListNotations.
Local Open Scope nat_scope.

Definition epair (e : edge) : node * node := (e_src e, e_dst e).

(** ** Contiguous lists *)

(* removing single edges may not respect pairs, contiguity survives all the same *)
Lemma cont_filter_any : forall (h : edge -> bool) l, contiguous (map epair l) -> contiguous (map epair (filter h l)).
Proof.
  induction l as [|e r IH]; intros C; simpl in *; [exact I|]. destruct C as [C1 C2]. specialize (IH C2).
  destruct (h e) eqn:E; [|exact IH]. simpl. split; [|exact IH]. clear IH E. revert C1 C2.
  induction r as [|y r IHr]; intros C1 C2 Hin; [destruct Hin|].
  assert (Hin' : In (epair e) (map epair (y :: r))). { apply in_map_iff in Hin. destruct Hin as (x & Ex & Hx). apply filter_In in Hx. apply in_map_iff; exists x; tauto. }
  destruct (C1 Hin') as (r' & Er). simpl in Er. assert (Ey : epair y = epair e) by congruence. clear Er. simpl in *. destruct (h y).
  - simpl. rewrite Ey. eexists; reflexivity.
  - destruct C2 as [D1 D2]. apply IHr; [|exact D2|exact Hin]. intros H. rewrite <- Ey in H. rewrite <- Ey. apply D1; exact H.
Qed.

Lemma cont_app : forall l l', contiguous l -> contiguous l' -> (forall p, In p l -> ~ In p l') -> contiguous (l ++ l').
Proof.
  induction l as [|p r IH]; intros l' C C' D; simpl in *; [exact C'|]. destruct C as [C1 C2]. split.
  - intros Hin. apply in_app_or in Hin. destruct Hin as [Hin|Hin]; [|exfalso; exact (D p (or_introl eq_refl) Hin)].
    destruct (C1 Hin) as (r' & ->). eexists; reflexivity.
  - apply IH; [exact C2|exact C'|]. intros q Hq; apply D; right; exact Hq.
Qed.

Lemma cont_map : forall (h : node * node -> node * node) l, (forall a b, In a l -> In b l -> h a = h b -> a = b) -> contiguous l -> contiguous (map h l).
Proof.
  induction l as [|p r IH]; intros Inj C; simpl in *; [exact I|]. destruct C as [C1 C2]. split.
  - intros Hin. apply in_map_iff in Hin; destruct Hin as (q & E & Hq). assert (q = p) by (apply Inj; [right; exact Hq|left; reflexivity|exact E]). subst q.
    destruct (C1 Hq) as (r' & ->). simpl. eexists; reflexivity.
  - apply IH; [intros a b Ha Hb; apply Inj; right; assumption|exact C2].
Qed.

Lemma cont_prefix : forall l p, contiguous (l ++ [p]) -> contiguous l.
Proof.
  induction l as [|q r IH]; intros p C; simpl in *; [exact I|]. destruct C as [C1 C2]. split; [|eapply IH; exact C2].
  intros Hin. destruct r as [|x r]; [destruct Hin|]. destruct (C1 (in_or_app _ _ _ (or_introl Hin))) as (r' & E). simpl in E. injection E as <- _. eexists; reflexivity.
Qed.

Lemma cont_last : forall l p, contiguous (l ++ [p]) -> In p l -> exists l', l = l' ++ [p].
Proof.
  induction l as [|q r IH]; intros p C Hin; simpl in *; [destruct Hin|]. destruct C as [C1 C2].
  destruct r as [|x r].
  - destruct Hin as [->|[]]. exists []; reflexivity.
  - assert (Hr : In p (x :: r)).
    { destruct Hin as [->|Hin]; [|exact Hin]. assert (Hp : In p ((x :: r) ++ [p])) by (apply in_or_app; right; left; reflexivity). destruct (C1 Hp) as (r' & E). simpl in E. injection E as <- _. left; reflexivity. }
    destruct (IH p C2 Hr) as (l' & E). exists (q :: l'). simpl. rewrite E. reflexivity.
Qed.

Lemma cont_flat_map : forall ns es, NoDup ns -> contiguous (map epair es) ->
  contiguous (map epair (flat_map (fun n => filter (fun e => Nat.eqb (e_src e) n) es) ns)).
Proof.
  induction ns as [|n ns IH]; intros es ND C; simpl; [exact I|]. inversion ND as [|? ? N ND']; subst. rewrite map_app. apply cont_app.
  - apply cont_filter_any; exact C.
  - apply IH; assumption.
  - intros p Hp Hp'. apply in_map_iff in Hp; destruct Hp as (a & Ea & Ha). apply filter_In in Ha; destruct Ha as [_ Ha]. apply Nat.eqb_eq in Ha.
    apply in_map_iff in Hp'; destruct Hp' as (b & Eb & Hb). apply in_flat_map in Hb; destruct Hb as (m & Hm & Hb). apply filter_In in Hb; destruct Hb as [_ Hb]. apply Nat.eqb_eq in Hb.
    apply N. assert (e_src a = e_src b) by (unfold epair in *; congruence). congruence.
Qed.

Lemma view_cont : forall g, wf g -> grouped g -> contiguous (map epair (edges_view g)).
Proof. intros g W C. unfold edges_view, nx_out_edges. apply cont_flat_map; [exact (wf_nodes g W)|exact C]. Qed.

(** ** Insertion *)

Lemma existsb_pair : forall u v es, existsb (same_pair u v) es = true <-> In (u, v) (map epair es).
Proof.
  intros u v es. rewrite existsb_exists, in_map_iff. split; intros (e & H1 & H2); exists e.
  - apply same_pair_true in H2; destruct H2 as [<- <-]. split; [reflexivity|exact H1].
  - unfold epair in H1; injection H1 as <- <-. split; [exact H2|apply same_pair_true; auto].
Qed.

Lemma insert_new : forall x es, ~ In (epair x) (map epair es) -> insert_edge x es = es ++ [x].
Proof.
  intros x es; induction es as [|e r IH]; intros N; simpl; [reflexivity|].
  destruct (same_pair (e_src x) (e_dst x) e) eqn:E.
  - exfalso. apply N. left. apply same_pair_true in E; destruct E as [E1 E2]. unfold epair; congruence.
  - simpl. f_equal. apply IH. intros H; apply N; right; exact H.
Qed.

Lemma insert_last : forall x es y, epair y = epair x -> insert_edge x (es ++ [y]) = es ++ [y; x].
Proof.
  intros x es y E; induction es as [|e r IH].
  - simpl. assert (same_pair (e_src x) (e_dst x) y = true) by (apply same_pair_true; unfold epair in E; injection E; auto). rewrite H. reflexivity.
  - simpl. assert (X : existsb (same_pair (e_src x) (e_dst x)) (r ++ [y]) = true).
    { apply existsb_pair. rewrite map_app. apply in_or_app; right; left. exact E. }
    rewrite X, andb_false_r. f_equal. exact IH.
Qed.

Lemma insert_head : forall x y r, exists r', insert_edge x (y :: r) = y :: r'.
Proof. intros x y r; simpl. destruct (_ && _); eexists; reflexivity. Qed.

Lemma insert_cont : forall x es, contiguous (map epair es) -> contiguous (map epair (insert_edge x es)).
Proof.
  intros x es; induction es as [|e r IH]; intros C; [simpl; tauto|].
  assert (Hc := C). simpl in Hc; destruct Hc as [C1 C2]. specialize (IH C2). cbn [insert_edge].
  destruct (same_pair (e_src x) (e_dst x) e) eqn:E; cbn [andb].
  - assert (Ex : epair e = epair x) by (apply same_pair_true in E; destruct E; unfold epair; congruence).
    destruct (existsb (same_pair (e_src x) (e_dst x)) r) eqn:X; cbn [negb].
    + apply existsb_pair in X. change (e_src x, e_dst x) with (epair x) in X. rewrite <- Ex in X. destruct (C1 X) as (r' & Er).
      destruct r as [|y r]; [discriminate|]. simpl in Er; assert (Ey : epair y = epair e) by congruence. cbn [map contiguous]. split; [|exact IH].
      intros _. destruct (insert_head x y r) as (r'' & ->). simpl. rewrite Ey. eexists; reflexivity.
    + assert (N : ~ In (epair x) (map epair r)) by (intros H; apply (existsb_pair (e_src x) (e_dst x)) in H; congruence).
      cbn [map contiguous]. split; [intros _; rewrite Ex; eexists; reflexivity|]. split; [intros H; contradiction|exact C2].
  - cbn [map contiguous]. split; [|exact IH]. intros H.
    assert (Hr : In (epair e) (map epair r)).
    { assert (P : Permutation (map epair (insert_edge x r)) (map epair (x :: r))) by (apply Permutation_map, insert_edge_perm).
      apply (Permutation_in _ P) in H. destruct H as [H|H]; [|exact H]. exfalso.
      assert (same_pair (e_src x) (e_dst x) e = true) by (apply same_pair_true; unfold epair in H; injection H as H1 H2; auto). congruence. }
    destruct (C1 Hr) as (r' & Er). destruct r as [|y r]; [discriminate|]. simpl in Er; assert (Ey : epair y = epair e) by congruence.
    destruct (insert_head x y r) as (r'' & ->). simpl. rewrite Ey. eexists; reflexivity.
Qed.

Lemma add_edge_grouped : forall g u v d, grouped g -> grouped (add_edge g u v d).
Proof. intros g u v d C. unfold grouped, add_edge; cbn [g_edges]. exact (insert_cont _ _ C). Qed.

Lemma init_edges_grouped : forall edges g, grouped g -> grouped (init_edges g edges).
Proof.
  induction edges as [|[[[u v] k] c] r IH]; intros g C; [exact C|]. cbn [init_edges fold_left]. apply IH, add_edge_grouped, C.
Qed.

Lemma remove_edge_grouped : forall g i, grouped g -> grouped (remove_edge g i).
Proof. intros g i C. exact (cont_filter_any _ _ C). Qed.
Lemma remove_node_grouped : forall g n, grouped g -> grouped (remove_node g n).
Proof. intros g n C. exact (cont_filter_any _ _ C). Qed.

Lemma fold_add_grouped : forall (l : list (node * node * edata)) g, grouped g ->
  grouped (fold_left (fun g t => match t with (a, b, d) => add_edge g a b d end) l g).
Proof. induction l as [|[[a b] d] r IH]; intros g C; [exact C|]. cbn [fold_left]. apply IH, add_edge_grouped, C. Qed.

Lemma apply_grouped : forall L o g l d g', apply_op L o g l d = Some g' -> grouped g -> grouped g'.
Proof.
  intros L o g l d g' H C. destruct o, l; simpl in H; try discriminate.
  - unfold apply_series in H. destruct (find_edge g e) as [x|]; [|discriminate].
    assert (C1 : grouped (remove_edge (add_node g (d_id d) (fresh_ndata (d_node d))) e)).
    { apply remove_edge_grouped. unfold add_node. destruct (has_node g (d_id d)); exact C. }
    destruct (Nat.eqb n (e_src x)); injection H as <-; apply add_edge_grouped, add_edge_grouped, C1.
  - unfold apply_parallel in H. destruct (_ && _); [|discriminate]. injection H as <-. apply add_edge_grouped, C.
  - unfold apply_remove in H. destruct (find_edge g e) as [x|]; [|discriminate]. cbv zeta in H.
    pose proof (remove_edge_grouped g e C) as C1. destruct (has_path _ _ _); [injection H as <-; exact C1|].
    destruct (node_data _ _); [|discriminate]. injection H as <-. unfold grouped, set_node_data; cbn [g_edges].
    apply (fold_add_grouped (contracted_edges _ _ _) (remove_node (remove_edge g e) (e_dst x))). apply remove_node_grouped, C1.
  - unfold apply_swap_node in H. destruct (node_data g n); [|discriminate]. destruct (swap_set _ _); injection H as <-; exact C.
  - unfold apply_swap_edge in H. destruct (find_edge g e); [|discriminate]. destruct (swap_set _ _); injection H as <-; [exact C|].
    unfold grouped, set_edge_data in *; cbn [g_edges]. rewrite map_map. erewrite map_ext; [exact C|]. intros x; cbv beta. destruct (eid_eqb (e_id x) e); reflexivity.
Qed.

Lemma run_grouped : forall L g os g', evo_run L g os g' -> grouped g -> grouped g'.
Proof.
  intros L g os g' H; induction H as [g|g o g1 os g2 S R IH]; intros C; [exact C|]. apply IH. inversion S; subst. eapply apply_grouped; eassumption.
Qed.

Lemma init_grouped : forall nodes edges g, NoDup (map fst nodes) -> init_graph nodes edges = Some g -> grouped g.
Proof.
  intros nodes edges g ND H. unfold init_graph in H. destruct (_ && _); [|discriminate]. destruct (topological_sort _); [|discriminate]. injection H as <-.
  apply init_edges_grouped. rewrite (init_nodes_eq nodes ND). exact I.
Qed.

(** ** The order is kept *)

Definition want (p : eid * comp) : node * node * comp := match p with ((u, v, _), c) => (u, v, c) end.

Lemma init_edges_snoc : forall edges p g, init_edges g (edges ++ [p]) = match p with ((u, v, _), c) => add_edge (init_edges g edges) u v (mkED c (ccls c)) end.
Proof. intros edges p g. unfold init_edges. rewrite fold_left_app. simpl. destruct p as [[[u v] k] c]. reflexivity. Qed.

Lemma init_edges_order : forall edges g, g_edges g = [] -> contiguous (map (fun p => fst (want p)) edges) ->
  connections (init_edges g edges) = map want edges.
Proof.
  induction edges as [|p edges IH] using rev_ind; intros g E C; [unfold connections, init_edges; simpl; rewrite E; reflexivity|].
  rewrite map_app in C. simpl in C. specialize (IH g E (cont_prefix _ _ C)). rewrite init_edges_snoc.
  destruct p as [[[u v] k] c]. set (g1 := init_edges g edges) in *. unfold add_edge, connections. cbn [g_edges].
  set (x := mkE u v (new_edge_key (g_edges g1) u v) (mkED c (ccls c))). rewrite map_app. simpl.
  assert (P : map epair (g_edges g1) = map (fun p => fst (want p)) edges).
  { transitivity (map fst (connections g1)); [unfold connections; rewrite map_map; apply map_ext; reflexivity|]. rewrite IH, map_map. reflexivity. }
  assert (Ins : insert_edge x (g_edges g1) = g_edges g1 ++ [x]).
  { destruct (existsb (same_pair u v) (g_edges g1)) eqn:X.
    - apply existsb_pair in X. rewrite P in X. destruct (cont_last _ _ C X) as (l' & El). rewrite <- P in El.
      destruct (exists_last (l := g_edges g1)) as (es & y & Ey); [intros En; rewrite En in El; destruct l'; discriminate|].
      rewrite Ey in El. rewrite map_app in El. simpl in El. apply app_inj_tail in El. destruct El as [_ El].
      rewrite Ey, insert_last by exact El. rewrite <- app_assoc. reflexivity.
    - apply insert_new. intros H. apply (existsb_pair u v) in H. congruence. }
  rewrite Ins, map_app. fold (connections g1). rewrite IH. reflexivity.
Qed.

Lemma flat_map_ext_in' : forall {X Y} (h h' : X -> list Y) l, (forall x, In x l -> h x = h' x) -> flat_map h l = flat_map h' l.
Proof. intros X Y h h' l; induction l as [|x l IH]; intros H; simpl; [reflexivity|]. rewrite (H x (or_introl eq_refl)), IH by (intros; apply H; right; assumption). reflexivity. Qed.

Lemma flat_map_sorted : forall (h : node -> nat) ns l, NoDup ns -> map e_src l = flat_map (fun n => repeat n (h n)) ns ->
  flat_map (fun n => filter (fun e => Nat.eqb (e_src e) n) l) ns = l.
Proof.
  intros h ns; induction ns as [|n ns IH]; intros l ND E; simpl in *; [destruct l; [reflexivity|discriminate]|].
  inversion ND as [|? ? N ND']; subst.
  set (l0 := firstn (h n) l). set (l1 := skipn (h n) l). assert (El : l = l0 ++ l1) by (symmetry; apply firstn_skipn).
  assert (S0 : map e_src l0 = repeat n (h n)).
  { unfold l0. rewrite <- firstn_map, E. rewrite firstn_app, repeat_length, Nat.sub_diag, firstn_O, app_nil_r.
    rewrite <- (repeat_length n (h n)) at 1. apply firstn_all. }
  assert (S1 : map e_src l1 = flat_map (fun n => repeat n (h n)) ns).
  { rewrite El, map_app, S0 in E. apply app_inv_head in E. exact E. }
  assert (F0 : forall e, In e l0 -> e_src e = n). { intros e He. apply (repeat_spec (h n)). rewrite <- S0. apply in_map; exact He. }
  assert (F1 : forall e, In e l1 -> In (e_src e) ns).
  { intros e He. assert (X : In (e_src e) (map e_src l1)) by (apply in_map; exact He). rewrite S1 in X. apply in_flat_map in X. destruct X as (m & Hm & X). apply repeat_spec in X. congruence. }
  rewrite El at 1. rewrite filter_app. rewrite (filter_true _ l0) by (intros e He; apply Nat.eqb_eq, F0, He).
  rewrite (filter_nil _ l1), app_nil_r by (intros e He; apply Nat.eqb_neq; intros C; apply N; rewrite <- C; apply F1, He).
  transitivity (l0 ++ l1); [|symmetry; exact El]. f_equal. transitivity (flat_map (fun n => filter (fun e => Nat.eqb (e_src e) n) l1) ns); [|apply IH; assumption].
  apply flat_map_ext_in'. intros m Hm. rewrite El, filter_app. rewrite (filter_nil _ l0); [reflexivity|].
  intros e He. apply Nat.eqb_neq. rewrite (F0 e He). intros ->. contradiction.
Qed.

Lemma view_sources : forall ns es, map e_src (flat_map (fun n => filter (fun e => Nat.eqb (e_src e) n) es) ns) =
  flat_map (fun n => repeat n (length (filter (fun e => Nat.eqb (e_src e) n) es))) ns.
Proof.
  induction ns as [|n ns IH]; intros es; simpl; [reflexivity|]. rewrite map_app, IH. f_equal.
  assert (A : forall e, In e (filter (fun e => Nat.eqb (e_src e) n) es) -> e_src e = n) by (intros e He; apply filter_In in He; apply Nat.eqb_eq; tauto).
  revert A. generalize (filter (fun e => Nat.eqb (e_src e) n) es) as l. induction l as [|e l IHl]; intros A; simpl; [reflexivity|].
  rewrite (A e (or_introl eq_refl)). f_equal. apply IHl; intros; apply A; right; assumption.
Qed.

(** ** The relabelled copy *)

Section Rebuild.
Variable g : graph.
Variable f : node -> node.
Variable ncs ecs : list comp.
Hypothesis W : wf g.
Hypothesis A : acyclic g.
Hypothesis G : grouped g.
Hypothesis Inj : one_to_one f g.
Hypothesis Ln : length ncs = length (g_nodes g).
Hypothesis Le : length ecs = length (edges_view g).
Hypothesis Up : forall c, In c ncs -> can_be_node c.

Let nodes' := combine (map f (node_ids g)) ncs.
Let edges' := combine (map (fun e => (f (e_src e), f (e_dst e), e_key e)) (edges_view g)) ecs.

Lemma combine_fst : forall {X Y} (a : list X) (b : list Y), length a = length b -> map fst (combine a b) = a.
Proof. intros X Y a; induction a as [|x a IH]; intros [|y b] H; simpl in *; try discriminate; [reflexivity|]. f_equal. apply IH. congruence. Qed.
Lemma combine_snd : forall {X Y} (a : list X) (b : list Y), length a = length b -> map snd (combine a b) = b.
Proof. intros X Y a; induction a as [|x a IH]; intros [|y b] H; simpl in *; try discriminate; [reflexivity|]. f_equal. apply IH. congruence. Qed.

Lemma nodes_fst : map fst nodes' = map f (node_ids g).
Proof. unfold nodes'. apply combine_fst. unfold node_ids. rewrite !map_length. congruence. Qed.

Lemma nodes_nodup : NoDup (map fst nodes').
Proof.
  rewrite nodes_fst. assert (N : NoDup (node_ids g)) by exact (wf_nodes g W).
  assert (H : forall a b, In a (node_ids g) -> In b (node_ids g) -> f a = f b -> a = b) by (intros a b Ha Hb; apply Inj; apply node_ids_is_node; assumption).
  induction (node_ids g) as [|n l IH]; simpl; [constructor|]. inversion N; subst. constructor.
  - intros C. apply in_map_iff in C; destruct C as (m & E & Hm). assert (m = n) by (apply H; [right; exact Hm|left; reflexivity|exact E]). congruence.
  - apply IH; [assumption|]. intros a b Ha Hb; apply H; right; assumption.
Qed.

Lemma edges_fst : map fst edges' = map (fun e => (f (e_src e), f (e_dst e), e_key e)) (edges_view g).
Proof. unfold edges'. apply combine_fst. rewrite map_length. congruence. Qed.

Lemma edges_want : map (fun p => fst (want p)) edges' = map (fun p => (f (fst p), f (snd p))) (map epair (edges_view g)).
Proof.
  transitivity (map (fun i : node * node * nat => (fst (fst i), snd (fst i))) (map fst edges')).
  - rewrite map_map. apply map_ext. intros [[[u v] k] c]; reflexivity.
  - rewrite edges_fst, !map_map. reflexivity.
Qed.

Lemma edges_ends : forall u v k c, In ((u, v, k), c) edges' -> exists e, In e (g_edges g) /\ u = f (e_src e) /\ v = f (e_dst e).
Proof.
  intros u v k c H. apply (in_map fst) in H. rewrite edges_fst in H. apply in_map_iff in H. destruct H as (e & E & He). apply (In_edges_view g e W) in He.
  simpl in E; injection E as <- <- _. exists e; auto.
Qed.

Lemma no_cycle : ~ wants_cycle edges'.
Proof.
  intros (n & H). assert (X : exists u v, n = f u /\ n = f v /\ path1 g u v).
  { assert (Y : forall a b, clos_trans node (wants edges') a b -> exists u v, a = f u /\ b = f v /\ path1 g u v).
    { clear H n. intros a b H. induction H as [a b (k & c & Hin)|a b c _ (u & v & -> & -> & P) _ (v' & w & E & -> & Q)].
      - destruct (edges_ends a b k c Hin) as (e & He & -> & ->). exists (e_src e), (e_dst e). split; [reflexivity|]. split; [reflexivity|]. apply t_step. exists e; auto.
      - assert (v = v') by (apply Inj; [apply (path_is_node g u v W P)|apply (path_is_node g v' w W Q)|exact E]). subst v'.
        exists u, w. split; [reflexivity|]. split; [reflexivity|]. eapply t_trans; eassumption. }
    destruct (Y n n H) as (u & v & E1 & E2 & P). exists u, v; auto. }
  destruct X as (u & v & E1 & E2 & P). destruct (path_is_node g u v W P) as [Nu Nv].
  assert (u = v) by (apply Inj; congruence). subst v. exact (A u P).
Qed.

Lemma map_pair_rel : forall {X Y Z} (R : X -> Y -> Prop) (k : X -> Z) l (c : list Y), Forall2 R l c -> Forall2 (fun x p => fst p = k x /\ R x (snd p)) l (combine (map k l) c).
Proof. intros X Y Z R k l c H; induction H; simpl; constructor; auto. Qed.

Lemma Forall2_map_r : forall {X Y Z} (R : X -> Z -> Prop) (h : Y -> Z) l l', Forall2 R l (map h l') -> Forall2 (fun x y => R x (h y)) l l'.
Proof. intros X Y Z R h l; induction l as [|x l IH]; intros [|y l'] H; inversion H; subst; constructor; auto. Qed.
Lemma Forall2_map_l : forall {X Y Z} (R : Z -> Y -> Prop) (h : X -> Z) l l', Forall2 R (map h l) l' -> Forall2 (fun x y => R (h x) y) l l'.
Proof. intros X Y Z R h l; induction l as [|x l IH]; intros [|y l'] H; inversion H; subst; constructor; auto. Qed.

Lemma rebuild : exists g', init_graph nodes' edges' = Some g' /\ wf g' /\ acyclic g' /\ grouped g' /\ renumbered g' /\
    (forall Rn : node -> comp -> comp -> Prop, Forall2 (fun p c => Rn (fst p) (n_model (snd p)) c) (g_nodes g) ncs -> nodes_match f Rn g g') /\
    (forall Re : comp -> comp -> Prop, Forall2 Re (map (fun e => e_model (e_dat e)) (edges_view g)) ecs -> edges_match f Re g g') /\
    node_ids g' = map f (node_ids g) /\
    map (fun p => n_model (snd p)) (g_nodes g') = ncs /\ map (fun e => e_model (e_dat e)) (g_edges g') = ecs /\
    edges_view g' = g_edges g' /\
    (forall n, is_node g n -> departures g' (f n) = departures g n).
Proof.
  destruct (init_graph nodes' edges') as [g'|] eqn:E.
  2: { exfalso. apply (init_graph_raises_iff nodes' edges' nodes_nodup) in E. destruct E as [E|[(u & v & k & c & Hin & Nd)|(n & c & Hin & Nc)]].
       - exact (no_cycle E).
       - destruct (edges_ends u v k c Hin) as (e & Hee & -> & ->). destruct (wf_ends g W e Hee) as [N1 N2]. unfold declared in Nd. rewrite nodes_fst in Nd.
         destruct Nd as [Nd|Nd]; apply Nd, in_map, node_ids_is_node; assumption.
       - apply Nc, Up. apply (in_combine_r _ _ n c Hin). }
  exists g'. split; [reflexivity|]. destruct (init_graph_some nodes' edges' g' nodes_nodup E) as (W' & A' & Nm & Bt & _).
  split; [exact W'|]. split; [exact A'|]. split; [exact (init_grouped _ _ _ nodes_nodup E)|].
  assert (Ge : connections g' = map want edges').
  { assert (E' := E). unfold init_graph in E'. destruct (_ && _); [|discriminate]. destruct (topological_sort _); [|discriminate]. injection E' as <-.
    apply init_edges_order; [rewrite (init_nodes_eq nodes' nodes_nodup); reflexivity|]. rewrite edges_want. apply cont_map; [|apply view_cont; assumption].
    intros [a b] [c d] Ha Hc X. apply in_map_iff in Ha; destruct Ha as (e & Ee & Ha). apply in_map_iff in Hc; destruct Hc as (e' & Ee' & Hc).
    apply (In_edges_view g e W) in Ha. apply (In_edges_view g e' W) in Hc. unfold epair in *. injection Ee as <- <-. injection Ee' as <- <-. simpl in X. injection X as X1 X2.
    destruct (wf_ends g W e Ha), (wf_ends g W e' Hc). f_equal; apply Inj; assumption. }
  assert (Re' : renumbered g').
  { intros u v. specialize (Bt u v). unfold between in Bt. apply (f_equal (map fst)) in Bt. rewrite map_map in Bt. cbn [fst] in Bt.
    change (map (fun x : edge => e_key x)) with (map e_key) in Bt. rewrite Bt. unfold numbered. rewrite combine_fst by apply seq_length.
    f_equal. apply (f_equal (@length nat)) in Bt. rewrite map_length in Bt. rewrite Bt. unfold numbered. rewrite combine_fst by apply seq_length. symmetry; apply seq_length. }
  split; [exact Re'|].
  assert (Ids : node_ids g' = map f (node_ids g)).
  { transitivity (map fst (node_models_of g')); [unfold node_ids, node_models_of; rewrite map_map; reflexivity|]. rewrite Nm. apply nodes_fst. }
  assert (Mods : map (fun e => e_model (e_dat e)) (g_edges g') = ecs).
  { transitivity (map snd (connections g')); [unfold connections; rewrite map_map; reflexivity|]. rewrite Ge, map_map.
    transitivity (map snd edges'); [apply map_ext; intros [[[u v] k] c]; reflexivity|]. unfold edges'. apply combine_snd. rewrite map_length. congruence. }
  assert (Prs : map epair (g_edges g') = map (fun p => (f (fst p), f (snd p))) (map epair (edges_view g))).
  { transitivity (map fst (connections g')); [unfold connections; rewrite map_map; reflexivity|]. rewrite Ge, map_map. exact edges_want. }
  assert (Vw : edges_view g' = g_edges g').
  { unfold edges_view, nx_out_edges. rewrite Ids. set (k := fun m => length (filter (fun e => Nat.eqb (e_src e) m) (g_edges g))).
    assert (Src : map e_src (g_edges g') = map f (flat_map (fun n => repeat n (k n)) (node_ids g))).
    { transitivity (map fst (map epair (g_edges g'))); [rewrite map_map; reflexivity|]. rewrite Prs, !map_map.
      transitivity (map f (map e_src (edges_view g))); [rewrite map_map; reflexivity|]. f_equal. unfold edges_view, nx_out_edges. apply view_sources. }
    assert (Nd : NoDup (map f (node_ids g))) by (rewrite <- nodes_fst; exact nodes_nodup).
    (* counts as a function of the new label *)
    set (k' := fun x => length (filter (fun e => Nat.eqb (e_src e) x) (g_edges g'))).
    apply (flat_map_sorted k' _ _ Nd). rewrite Src.
    assert (Cnt : forall n, In n (node_ids g) -> k' (f n) = k n).
    { intros n Hin. unfold k', k. transitivity (length (filter (fun x => Nat.eqb x (f n)) (map e_src (g_edges g')))).
      - generalize (g_edges g') as l. induction l as [|e l IHl]; simpl; [reflexivity|]. destruct (Nat.eqb (e_src e) (f n)); simpl; congruence.
      - rewrite Src. transitivity (length (filter (fun x => Nat.eqb x n) (flat_map (fun n => repeat n (k n)) (node_ids g)))).
        + assert (Sub : forall x, In x (flat_map (fun n => repeat n (k n)) (node_ids g)) -> In x (node_ids g)).
          { intros x Hx. apply in_flat_map in Hx. destruct Hx as (m & Hm & Hx). apply repeat_spec in Hx. congruence. }
          clear Src. induction (flat_map (fun n => repeat n (k n)) (node_ids g)) as [|x l IHl]; simpl; [reflexivity|].
          assert (Hx : In x (node_ids g)) by (apply Sub; left; reflexivity).
          destruct (Nat.eqb_spec x n) as [->|Nx]; [rewrite Nat.eqb_refl; simpl; f_equal; apply IHl; intros; apply Sub; right; assumption|].
          destruct (Nat.eqb_spec (f x) (f n)) as [Ef|_]; [exfalso; apply Nx; apply Inj; [apply node_ids_is_node; exact Hx|apply node_ids_is_node; exact Hin|exact Ef]|].
          apply IHl; intros; apply Sub; right; assumption.
        + assert (N : NoDup (node_ids g)) by exact (wf_nodes g W). revert N Hin. fold (k n). clearbody k. clear. induction (node_ids g) as [|m l IHl]; intros N Hin; [destruct Hin|].
          simpl. rewrite filter_app, app_length. inversion N; subst. destruct Hin as [->|Hin].
          * rewrite (filter_true _ (repeat n (k n))) by (intros x Hx; apply repeat_spec in Hx; subst; apply Nat.eqb_refl). rewrite repeat_length.
            rewrite filter_nil; [simpl; lia|]. intros x Hx. apply in_flat_map in Hx; destruct Hx as (m & Hm & Hx). apply repeat_spec in Hx. apply Nat.eqb_neq. congruence.
          * rewrite (filter_nil _ (repeat m (k m))); [simpl; apply IHl; assumption|]. intros x Hx. apply repeat_spec in Hx; subst. apply Nat.eqb_neq. congruence. }
    clear -Cnt. induction (node_ids g) as [|n l IHl]; simpl; [reflexivity|]. rewrite map_app, IHl by (intros m Hm; apply Cnt; right; exact Hm). f_equal.
    rewrite (Cnt n (or_introl eq_refl)). induction (k n) as [|j IHj]; simpl; [reflexivity|]. rewrite IHj; reflexivity. }
  split; [|split; [|split; [exact Ids|split; [|split; [exact Mods|split; [exact Vw|]]]]]].
  - intros Rn Hn. unfold nodes_match.
    assert (X : Forall2 (fun p q => fst q = f (fst p) /\ Rn (fst p) (n_model (snd p)) (snd q)) (g_nodes g) (node_models_of g')).
    { rewrite Nm. unfold nodes', node_ids. rewrite map_map. apply (map_pair_rel (fun p c => Rn (fst p) (n_model (snd p)) c) (fun p => f (fst p))). exact Hn. }
    unfold node_models_of in X. apply Forall2_map_r in X. exact X.
  - intros Re He. unfold edges_match. rewrite Vw. clear Vw. rewrite <- Mods in He. clear Mods. revert Prs He. generalize (edges_view g) as l. generalize (g_edges g') as l'.
    intros l' l; revert l'. induction l as [|e l IHl]; intros [|e' l'] P Hh; simpl in *; try discriminate; [constructor|].
    inversion Hh; subst. injection P as P1 P2 P3. constructor; [auto|]. apply IHl; assumption.
  - transitivity (map snd (node_models_of g')); [unfold node_models_of; rewrite map_map; reflexivity|]. rewrite Nm. unfold nodes'. apply combine_snd. unfold node_ids. rewrite !map_length. congruence.
  - intros n Hin. unfold departures.
    transitivity (length (filter (fun p : node * node => Nat.eqb (fst p) (f n)) (map epair (g_edges g')))).
    { generalize (g_edges g') as l. induction l as [|e l IHl]; simpl; [reflexivity|]. destruct (Nat.eqb (e_src e) (f n)); simpl; congruence. }
    rewrite Prs. transitivity (length (filter (fun e => Nat.eqb (e_src e) n) (edges_view g))).
    { assert (Sub : forall e, In e (edges_view g) -> is_node g (e_src e)) by (intros e Hee; apply (In_edges_view g e W) in Hee; apply (wf_ends g W e Hee)).
      clear -Sub Inj Hin. induction (edges_view g) as [|e l IHl]; simpl; [reflexivity|]. pose proof (Sub e (or_introl eq_refl)) as Ne.
      destruct (Nat.eqb_spec (e_src e) n) as [->|Nx]; [rewrite Nat.eqb_refl; simpl; f_equal; apply IHl; intros; apply Sub; right; assumption|].
      destruct (Nat.eqb_spec (f (e_src e)) (f n)) as [Ef|_]; [exfalso; apply Nx, Inj; assumption|]. apply IHl; intros; apply Sub; right; assumption. }
    apply Permutation_length, filter_perm, edges_view_perm, W.
Qed.

End Rebuild.
