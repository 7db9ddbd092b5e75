(** Invariants of evolution (properties C01-C05). *)
From Coq Require Import List Arith Bool Lia Relations Permutation.
From Verif Require Import GraphModel GraphSpec GraphProofs TopoProofs OperatorsModel OperatorsSpec OperatorsProofs.
Import ListNotations.

(** ** Helpers *)

Lemma perm_In : forall {A} (l l' : list A) x, Permutation l l' -> (In x l <-> In x l').
Proof. intros A l l' x P; split; apply Permutation_in; [exact P|apply Permutation_sym; exact P]. Qed.

Lemma same_edge : forall g x e, wf g -> In x (g_edges g) -> In e (g_edges g) -> e_id x = e_id e -> x = e.
Proof. intros g x e W Hx He E; apply (NoDup_map_inj_In e_id (g_edges g)); [exact (wf_keys g W)|assumption..]. Qed.

Lemma edge_cases : forall g x e, wf g -> In x (g_edges g) -> In e (g_edges g) ->
  x = e \/ In x (g_edges (remove_edge g (e_id e))).
Proof.
  intros g x e W Hx He; destruct (eid_eqb (e_id x) (e_id e)) eqn:E.
  - left; apply eid_eqb_eq in E; eapply same_edge; eassumption.
  - right; apply In_remove_edge; split; [exact Hx|apply eid_eqb_neq; exact E].
Qed.

Lemma In_set_assoc_neq : forall {A} n m (d x : A) l, m <> n -> (In (m, x) (set_assoc n d l) <-> In (m, x) l).
Proof.
  intros A n m d x l Hne; induction l as [|[k y] r IH]; simpl; [tauto|].
  destruct (Nat.eqb_spec n k) as [->|Hnk]; simpl.
  - split; (intros [E|H]; [injection E; intros; congruence|auto]).
  - rewrite IH; tauto.
Qed.

Lemma In_triples : forall g a b d, In (a, b, d) (triples g) <->
  exists e, In e (g_edges g) /\ e_src e = a /\ e_dst e = b /\ e_dat e = d.
Proof.
  intros g a b d; unfold triples; rewrite in_map_iff; split.
  - intros (e & E & H); injection E as <- <- <-; exists e; auto.
  - intros (e & H & <- & <- & <-); exists e; auto.
Qed.

Lemma no_input_iff : forall g n, no_input g n <-> is_node g n /\ in_degree g n = 0.
Proof. intros; unfold no_input; rewrite in_degree_zero; tauto. Qed.
Lemma no_output_iff : forall g n, no_output g n <-> is_node g n /\ out_degree g n = 0.
Proof. intros; unfold no_output; rewrite out_degree_zero; tauto. Qed.

Lemma path_last : forall g x y, path g x y -> x <> y -> exists e, In e (g_edges g) /\ e_dst e = y.
Proof.
  intros g x y P N; apply path_cases in P; destruct P as [->|P]; [congruence|].
  clear N; induction P as [x y (e & He & _ & Ed)|x y z _ _ _ IH]; [exists e; auto|exact IH].
Qed.

Lemma path_first : forall g x y, path g x y -> x <> y -> exists e, In e (g_edges g) /\ e_src e = x.
Proof.
  intros g x y P N; apply path_cases in P; destruct P as [->|P]; [congruence|].
  clear N; induction P as [x y (e & He & Es & _)|x y z _ IH _ _]; [exists e; auto|exact IH].
Qed.

(** ** Acyclicity *)

Lemma merged_step : forall g g' u v,
  Permutation (triples g') (map (redir u v) (triples g)) ->
  forall x y, connects g' x y -> exists x0 y0, connects g x0 y0 /\ merge u v x0 = x /\ merge u v y0 = y.
Proof.
  intros g g' u v P x y C; apply connects_triples in C; destruct C as (d & H).
  apply (perm_In _ _ _ P) in H; apply in_map_iff in H; destruct H as ([[a b] d0] & E & H).
  simpl in E; injection E as <- <- <-; exists a, b; split; [|auto].
  apply connects_triples; exists d0; exact H.
Qed.

Lemma merge_pre : forall u v x y, merge u v x = y -> y <> u -> x = y.
Proof. intros u v x y E N; unfold merge in E; destruct (Nat.eqb_spec x v); congruence. Qed.
Lemma merge_pre_u : forall u v x, merge u v x = u -> x = u \/ x = v.
Proof. intros u v x E; unfold merge in E; destruct (Nat.eqb_spec x v); auto. Qed.

Lemma merge_acyclic : forall g g' u v, acyclic g -> ~ path g u v -> ~ path g v u ->
  Permutation (triples g') (map (redir u v) (triples g)) -> acyclic g'.
Proof.
  intros g g' u v A Nuv Nvu P.
  pose proof (merged_step g g' u v P) as St.
  (* from y one reaches u in g'  ==>  from a preimage of y one reaches u or v in g *)
  assert (ClA : forall y z, path1 g' y z -> z = u ->
    exists y0, merge u v y0 = y /\ (path1 g y0 u \/ path1 g y0 v)).
  { intros y z H; apply clos_trans_t1n in H; induction H as [y z C|y w z C _ IH]; intros ->.
    - destruct (St _ _ C) as (y0 & z0 & C0 & E1 & E2). exists y0; split; [exact E1|].
      destruct (merge_pre_u _ _ _ E2) as [->| ->]; [left|right]; apply t_step; exact C0.
    - destruct (St _ _ C) as (y0 & w0 & C0 & E1 & E2). exists y0; split; [exact E1|].
      destruct (Nat.eq_dec w u) as [->|Nw].
      + destruct (merge_pre_u _ _ _ E2) as [->| ->]; [left|right]; apply t_step; exact C0.
      + destruct (IH eq_refl) as (w1 & E3 & Pw). apply merge_pre in E2; [|exact Nw]. apply merge_pre in E3; [|exact Nw].
        subst w0 w1. destruct Pw as [Pw|Pw]; [left|right]; (eapply t_trans; [apply t_step; exact C0|exact Pw]). }
  assert (NoU : ~ path1 g' u u).
  { intros H; destruct (ClA u u H eq_refl) as (y0 & E & Py).
    destruct (merge_pre_u _ _ _ E) as [->| ->]; destruct Py as [Py|Py].
    - exact (A u Py).
    - apply Nuv, path1_path, Py.
    - apply Nvu, path1_path, Py.
    - exact (A v Py). }
  assert (ClB : forall x y, path1 g' x y ->
    (exists x0 y0, merge u v x0 = x /\ merge u v y0 = y /\ path1 g x0 y0) \/ (path1 g' x u /\ path g' u y)).
  { intros x y H; apply clos_trans_t1n in H; induction H as [x y C|x w y C H IH].
    - destruct (St _ _ C) as (x0 & y0 & C0 & E1 & E2). left; exists x0, y0; repeat split; try assumption. apply t_step; exact C0.
    - destruct (St _ _ C) as (x0 & w0 & C0 & E1 & E2).
      destruct (Nat.eq_dec w u) as [->|Nw].
      + right; split; [apply t_step; exact C|]. apply path1_path. apply clos_t1n_trans; exact H.
      + destruct IH as [(w1 & y0 & E3 & E4 & Pw)|[Pw Pu]].
        * left; exists x0, y0. repeat split; try assumption.
          apply merge_pre in E2; [|exact Nw]. apply merge_pre in E3; [|exact Nw]. subst w0 w1.
          eapply t_trans; [apply t_step; exact C0|exact Pw].
        * right; split; [|exact Pu]. eapply t_trans; [apply t_step; exact C|exact Pw]. }
  intros n Pn.
  destruct (Nat.eq_dec n u) as [->|Nn]; [exact (NoU Pn)|].
  destruct (ClB n n Pn) as [(x0 & y0 & E1 & E2 & P0)|[P1 P2]].
  - apply merge_pre in E1; [|exact Nn]. apply merge_pre in E2; [|exact Nn]. subst. exact (A _ P0).
  - apply NoU. eapply path_trans_path1; eassumption.
Qed.

Lemma effect_acyclic : forall L g o g', wf g -> acyclic g -> effect L g o g' -> acyclic g'.
Proof.
  intros L g o g' W A H; destruct H as
    [e nid nn ne lft g' He HI Fr _ _ _ _ _ _ _ Gn Ge
    |a b ne o g' Na Nb Hab Oa Ob V I _ _ _ Gn Ge
    |e du dv He _ _ _ _ _ _ _ Hp
    |e n du dv save g' He Hn _ _ _ _ _ _ _ Np _ Gn Gt _
    | |n d c _ _ _ _ _ _ _ _|e c He _ _ _ _ _].
  - destruct (acyclic_rank g W A) as (r & R).
    destruct (wf_ends g W e He) as [Ns Nd].
    apply (rank_acyclic g' (fun x => if Nat.eqb x nid then S (2 * r (e_src e)) else 2 * r x)).
    intros u v (x & Hx & Es & Ed). subst u v. apply (perm_In _ _ _ Ge) in Hx. destruct Hx as [<-|[<-|Hx]]; cbn [e_src e_dst].
    + rewrite Nat.eqb_refl. destruct (Nat.eqb_spec (e_src e) nid) as [E|_]; [exfalso; apply Fr; rewrite <- E; exact Ns|lia].
    + rewrite Nat.eqb_refl. destruct (Nat.eqb_spec (e_dst e) nid) as [E|_]; [exfalso; apply Fr; rewrite <- E; exact Nd|].
      pose proof (R _ _ (connects_intro g e He)); lia.
    + apply In_remove_edge in Hx; destruct Hx as [Hx _]. destruct (wf_ends g W x Hx) as [Na Nb].
      destruct (Nat.eqb_spec (e_src x) nid) as [E|_]; [exfalso; apply Fr; rewrite <- E; exact Na|].
      destruct (Nat.eqb_spec (e_dst x) nid) as [E|_]; [exfalso; apply Fr; rewrite <- E; exact Nb|].
      pose proof (R _ _ (connects_intro g x Hx)); lia.
  - apply (rank_acyclic g' (fun x => index_of x o)).
    intros u v (x & Hx & Es & Ed). subst u v. apply (perm_In _ _ _ Ge) in Hx. destruct Hx as [<-|Hx]; simpl; [exact I|].
    apply (valid_order_rank g o W V); apply connects_intro; exact Hx.
  - apply acyclic_remove_edge; exact A.
  - apply (merge_acyclic (remove_edge g (e_id e)) g' (e_src e) (e_dst e)); [apply acyclic_remove_edge; exact A|exact Np| |exact Gt].
    intros P; apply path_remove_edge in P. apply (A (e_src e)). apply path1_step_path.
    exists (e_dst e); split; [apply connects_intro; exact He|exact P].
  - exact A.
  - exact A.
  - apply (acyclic_sub g); [|exact A]. intros u v (x & Hx & Es & Ed). simpl in Hx. apply in_map_iff in Hx.
    destruct Hx as (y & E & Hy). exists y; split; [exact Hy|]. destruct (eid_eqb (e_id y) (e_id e)); subst x; simpl in *; auto.
Qed.

Lemma run_wf_acyclic : forall L g os g', evo_run L g os g' -> wf g -> acyclic g -> wf g' /\ acyclic g'.
Proof.
  intros L g os g' R; induction R as [g|g o g' os g'' S _ IH]; intros W A; [auto|].
  destruct (step_effect L g o g' W A S) as [W' E]. apply IH; [exact W'|exact (effect_acyclic L g o g' W A E)].
Qed.

(* an invariant preserved by every effect holds along every run *)
Lemma run_invariant : forall L (I : graph -> Prop),
  (forall g o g', wf g -> acyclic g -> wf g' -> I g -> effect L g o g' -> I g') ->
  forall g os g', evo_run L g os g' -> wf g -> acyclic g -> I g -> I g'.
Proof.
  intros L I Hs g os g' R; induction R as [g|g o g' os g'' S _ IH]; intros W A H; [exact H|].
  destruct (step_effect L g o g' W A S) as [W' E].
  apply IH; [exact W'|exact (effect_acyclic L g o g' W A E)|exact (Hs g o g' W A W' H E)].
Qed.

(** ** Terminals *)

Lemma effect_terminals : forall L g o g', wf g -> acyclic g -> wf g' -> effect L g o g' ->
  (forall n, no_input g' n <-> no_input g n) /\ (forall n, no_output g' n <-> no_output g n).
Proof.
  intros L g o g' W A W' H; destruct H as
    [e nid nn ne lft g' He HI Fr _ _ _ _ _ _ _ Gn Ge
    |a b ne o g' Na Nb Hab Oa Ob V I _ _ _ Gn Ge
    |e du dv He _ _ _ _ _ _ _ Hp
    |e n0 du dv save g' He Hn Iu Ov _ Du _ Dv _ Np Sv Gn Gt _
    | |m d c _ _ _ _ _ _ _ _|e c He _ _ _ _ _].
  - assert (Nd' : forall n, is_node g' n <-> n = nid \/ is_node g n).
    { intros n; unfold is_node; rewrite Gn; split.
      - intros (d & H); apply in_app_or in H; destruct H as [H|[H|[]]]; [right; exists d; exact H|left; congruence].
      - intros [->|(d & H)]; eexists; apply in_or_app; [right; left; reflexivity|left; exact H]. }
    destruct (wf_ends g W e He) as [Ns Nd].
    split; intros n; split; intros [Hn Hx]; split.
    + apply Nd' in Hn; destruct Hn as [->|Hn]; [|exact Hn]. exfalso.
      apply (Hx (mkE (e_src e) nid 0 (if lft then fresh_edata ne else e_dat e))); [apply (perm_In _ _ _ Ge); left; reflexivity|reflexivity].
    + intros x Hin E. destruct (edge_cases g x e W Hin He) as [->|Hr].
      * apply (Hx (mkE nid (e_dst e) 0 (if lft then e_dat e else fresh_edata ne))); [apply (perm_In _ _ _ Ge); right; left; reflexivity|exact E].
      * apply (Hx x); [apply (perm_In _ _ _ Ge); right; right; exact Hr|exact E].
    + apply Nd'; right; exact Hn.
    + intros x Hin E. apply (perm_In _ _ _ Ge) in Hin. destruct Hin as [<-|[<-|Hin]]; simpl in E.
      * apply Fr; rewrite E; exact Hn.
      * exact (Hx e He E).
      * apply In_remove_edge in Hin; exact (Hx x (proj1 Hin) E).
    + apply Nd' in Hn; destruct Hn as [->|Hn]; [|exact Hn]. exfalso.
      apply (Hx (mkE nid (e_dst e) 0 (if lft then e_dat e else fresh_edata ne))); [apply (perm_In _ _ _ Ge); right; left; reflexivity|reflexivity].
    + intros x Hin E. destruct (edge_cases g x e W Hin He) as [->|Hr].
      * apply (Hx (mkE (e_src e) nid 0 (if lft then fresh_edata ne else e_dat e))); [apply (perm_In _ _ _ Ge); left; reflexivity|exact E].
      * apply (Hx x); [apply (perm_In _ _ _ Ge); right; right; exact Hr|exact E].
    + apply Nd'; right; exact Hn.
    + intros x Hin E. apply (perm_In _ _ _ Ge) in Hin. destruct Hin as [<-|[<-|Hin]]; simpl in E.
      * exact (Hx e He E).
      * apply Fr; rewrite E; exact Hn.
      * apply In_remove_edge in Hin; exact (Hx x (proj1 Hin) E).
  - assert (Nd' : forall n, is_node g' n <-> is_node g n) by (intros n; apply is_node_nodes; exact Gn).
    unfold parallel_node_ok in Oa, Ob. rewrite !andb_true_iff, !negb_true_iff, !Nat.eqb_neq in Oa, Ob.
    destruct Oa as [[[_ Oa] _] _]; destruct Ob as [[[Ib _] _] _].
    split; intros n; split; intros [Hn Hx]; (split; [apply Nd'; exact Hn|]); intros x Hin E.
    + apply (Hx x); [apply (perm_In _ _ _ Ge); right; exact Hin|exact E].
    + apply (perm_In _ _ _ Ge) in Hin; destruct Hin as [<-|Hin]; [|exact (Hx x Hin E)].
      simpl in E; subst n. apply in_degree_pos in Ib; destruct Ib as (y & Hy & Ey). exact (Hx y Hy Ey).
    + apply (Hx x); [apply (perm_In _ _ _ Ge); right; exact Hin|exact E].
    + apply (perm_In _ _ _ Ge) in Hin; destruct Hin as [<-|Hin]; [|exact (Hx x Hin E)].
      simpl in E; subst n. apply out_degree_pos in Oa; destruct Oa as (y & Hy & Ey). exact (Hx y Hy Ey).
  - pose proof (acyclic_no_loop g e A He) as NL.
    split; intros n; split; intros [Hn Hx]; (split; [exact Hn|]); intros x Hin E.
    + destruct (edge_cases g x e W Hin He) as [->|Hr]; [|exact (Hx x Hr E)].
      destruct (path_last _ _ _ Hp NL) as (y & Hy & Ey). apply (Hx y Hy); congruence.
    + apply In_remove_edge in Hin; exact (Hx x (proj1 Hin) E).
    + destruct (edge_cases g x e W Hin He) as [->|Hr]; [|exact (Hx x Hr E)].
      destruct (path_first _ _ _ Hp NL) as (y & Hy & Ey). apply (Hx y Hy); congruence.
    + apply In_remove_edge in Hin; exact (Hx x (proj1 Hin) E).
  - pose proof (acyclic_no_loop g e A He) as NL.
    assert (Nd' : forall n, is_node g' n <-> is_node g n /\ n <> e_dst e).
    { intros n. rewrite <- !node_ids_is_node. unfold node_ids. rewrite Gn, set_assoc_fst, !in_map_iff. split.
      - intros (p & <- & H); apply filter_In in H; destruct H as [H E]; apply negb_true_iff, Nat.eqb_neq in E.
        split; [exists p; auto|exact E].
      - intros ((p & <- & H) & E); exists p; split; [reflexivity|]; apply filter_In; split; [exact H|].
        apply negb_true_iff, Nat.eqb_neq; exact E. }
    assert (Fwd : forall x, In x (g_edges (remove_edge g (e_id e))) -> exists y, In y (g_edges g') /\
      e_src y = merge (e_src e) (e_dst e) (e_src x) /\ e_dst y = merge (e_src e) (e_dst e) (e_dst x)).
    { intros x Hx.
      assert (Ht : In (redir (e_src e) (e_dst e) (triple x)) (triples g')).
      { apply (perm_In _ _ _ Gt). apply in_map. apply in_map; exact Hx. }
      apply In_triples in Ht; destruct Ht as (y & Hy & E1 & E2 & _). exists y; auto. }
    assert (Bwd : forall y, In y (g_edges g') -> exists x, In x (g_edges (remove_edge g (e_id e))) /\
      e_src y = merge (e_src e) (e_dst e) (e_src x) /\ e_dst y = merge (e_src e) (e_dst e) (e_dst x)).
    { intros y Hy. assert (Ht : In (triple y) (triples g')) by (apply in_map; exact Hy).
      apply (perm_In _ _ _ Gt) in Ht. apply in_map_iff in Ht; destruct Ht as (t & E & Ht).
      apply in_map_iff in Ht; destruct Ht as (x & <- & Hx). unfold triple in E; simpl in E. injection E as E1 E2 _.
      exists x; auto. }
    assert (Keep : forall n, n <> e_dst e -> merge (e_src e) (e_dst e) n = n).
    { intros n Hne; unfold merge; destruct (Nat.eqb_spec n (e_dst e)); congruence. }
    split; intros n; split; intros [Hn0 Hx].
    + apply Nd' in Hn0; destruct Hn0 as [Hn0 Hne]. split; [exact Hn0|]. intros x Hin E.
      destruct (edge_cases g x e W Hin He) as [->|Hr]; [congruence|].
      destruct (Fwd x Hr) as (y & Hy & _ & E2). apply (Hx y Hy). rewrite E2, E; apply Keep; exact Hne.
    + assert (Hne : n <> e_dst e) by (intros ->; exact (Hx e He eq_refl)).
      split; [apply Nd'; auto|]. intros y Hin E. destruct (Bwd y Hin) as (x & Hr & _ & E2).
      apply In_remove_edge in Hr; destruct Hr as [Hr _]. rewrite E in E2; symmetry in E2. unfold merge in E2.
      destruct (Nat.eqb_spec (e_dst x) (e_dst e)) as [Ed|Ed]; [|exact (Hx x Hr E2)].
      apply in_degree_pos in Iu; destruct Iu as (z & Hz & Ez). apply (Hx z Hz); congruence.
    + apply Nd' in Hn0; destruct Hn0 as [Hn0 Hne]. split; [exact Hn0|]. intros x Hin E.
      destruct (edge_cases g x e W Hin He) as [->|Hr].
      * apply out_degree_pos in Ov; destruct Ov as (z & Hz & Ez).
        destruct (edge_cases g z e W Hz He) as [->|Hzr]; [congruence|].
        destruct (Fwd z Hzr) as (y & Hy & E1 & _). apply (Hx y Hy). rewrite E1, Ez. unfold merge; rewrite Nat.eqb_refl; exact E.
      * destruct (Fwd x Hr) as (y & Hy & E1 & _). apply (Hx y Hy). rewrite E1, E; apply Keep; exact Hne.
    + assert (Hne : n <> e_dst e).
      { intros ->. apply out_degree_pos in Ov; destruct Ov as (z & Hz & Ez). exact (Hx z Hz Ez). }
      split; [apply Nd'; auto|]. intros y Hin E. destruct (Bwd y Hin) as (x & Hr & E1 & _).
      apply In_remove_edge in Hr; destruct Hr as [Hr _]. rewrite E in E1; symmetry in E1. unfold merge in E1.
      destruct (Nat.eqb_spec (e_src x) (e_dst e)) as [Ed|Ed]; [|exact (Hx x Hr E1)].
      apply (Hx e He); congruence.
  - split; tauto.
  - assert (Nd' : forall n x, is_node (set_node_data g m x) n <-> is_node g n).
    { intros n x; rewrite <- !node_ids_is_node; unfold node_ids; simpl; rewrite set_assoc_fst; tauto. }
    split; intros n; unfold no_input, no_output; rewrite Nd'; simpl; tauto.
  - assert (Ex : forall f n,
      (forall e1 e2 : edge, e_src e1 = e_src e2 -> e_dst e1 = e_dst e2 -> f e1 = f e2) ->
      ((forall x, In x (g_edges (set_edge_data g (e_id e) (mkED c (e_name (e_dat e))))) -> f x <> n) <->
       (forall x : edge, In x (g_edges g) -> f x <> n :> nat))).
    { intros f n Hf; simpl; split; intros H x Hx.
      - set (y := if eid_eqb (e_id x) (e_id e) then mkE (e_src x) (e_dst x) (e_key x) (mkED c (e_name (e_dat e))) else x).
        assert (Hy : f y = f x) by (unfold y; destruct (eid_eqb _ _); apply Hf; reflexivity).
        rewrite <- Hy; apply H. apply in_map_iff; exists x; split; [reflexivity|exact Hx].
      - apply in_map_iff in Hx; destruct Hx as (y & E & Hy).
        assert (Hf2 : f x = f y) by (subst x; destruct (eid_eqb _ _); apply Hf; reflexivity).
        rewrite Hf2; apply H; exact Hy. }
    split; intros n; unfold no_input, no_output.
    + rewrite (Ex e_dst n) by auto. tauto.
    + rewrite (Ex e_src n) by auto. tauto.
Qed.

(* nodes without inputs or without outputs keep their component object *)
Lemma effect_terminal_model : forall L g o g' n, wf g -> acyclic g -> wf g' -> effect L g o g' ->
  no_input g n \/ no_output g n -> forall c, model_at g n c <-> model_at g' n c.
Proof.
  intros L g o g' n W A W' H T c; destruct H as
    [e nid nn ne lft g' He HI Fr _ _ _ _ _ _ _ Gn Ge
    |a b ne o g' Na Nb Hab Oa Ob V I _ _ _ Gn Ge
    |e du dv He _ _ _ _ _ _ _ Hp
    |e n0 du dv save g' He Hn Iu Ov _ Du _ Dv _ Np Sv Gn Gt _
    | |m d c' _ _ Im Om _ _ _ _|e c' He _ _ _ _ _].
  - assert (Hn : is_node g n) by (destruct T as [[T _]|[T _]]; exact T).
    unfold model_at; rewrite Gn; split; intros (d & H & E); exists d; (split; [|exact E]).
    + apply in_or_app; left; exact H.
    + apply in_app_or in H; destruct H as [H|[H|[]]]; [exact H|]. injection H as -> _; contradiction.
  - unfold model_at; rewrite Gn; tauto.
  - unfold model_at; simpl; tauto.
  - assert (H1 : n <> e_src e).
    { intros ->; destruct T as [[_ T]|[_ T]]; [|exact (T e He eq_refl)].
      apply in_degree_pos in Iu; destruct Iu as (z & Hz & Ez); exact (T z Hz Ez). }
    assert (H2 : n <> e_dst e).
    { intros ->; destruct T as [[_ T]|[_ T]]; [exact (T e He eq_refl)|].
      apply out_degree_pos in Ov; destruct Ov as (z & Hz & Ez); exact (T z Hz Ez). }
    unfold model_at; rewrite Gn. split; intros (d & H & E); exists d; (split; [|exact E]).
    + apply In_set_assoc_neq; [exact H1|]. apply filter_In; split; [exact H|]. simpl; apply negb_true_iff, Nat.eqb_neq; exact H2.
    + apply In_set_assoc_neq in H; [|exact H1]. apply filter_In in H; tauto.
  - tauto.
  - assert (H1 : n <> m).
    { intros ->; destruct T as [[_ T]|[_ T]].
      - apply in_degree_pos in Im; destruct Im as (z & Hz & Ez); exact (T z Hz Ez).
      - apply out_degree_pos in Om; destruct Om as (z & Hz & Ez); exact (T z Hz Ez). }
    unfold model_at; simpl. split; intros (x & H & E); exists x; (split; [|exact E]); apply (In_set_assoc_neq m n) in H || apply (In_set_assoc_neq m n); assumption.
  - unfold model_at; simpl; tauto.
Qed.

(* every node of a finite acyclic graph lies between a source and a sink *)
Lemma from_source : forall g n, wf g -> acyclic g -> is_node g n -> exists s, no_input g s /\ path g s n.
Proof.
  intros g n W A. destruct (acyclic_rank g W A) as (r & R).
  remember (r n) as k eqn:Ek. revert n Ek. induction k as [k IH] using lt_wf_ind; intros n Ek Hn.
  destruct (Nat.eq_dec (in_degree g n) 0) as [Z|Z].
  - exists n; split; [apply no_input_iff; auto|apply rt_refl].
  - apply in_degree_pos in Z; destruct Z as (e & He & Ed).
    destruct (IH (r (e_src e))) with (n := e_src e) as (s & Hs & Ps).
    + subst; apply R; exists e; auto.
    + reflexivity.
    + apply (wf_ends g W e He).
    + exists s; split; [exact Hs|]. eapply rt_trans; [exact Ps|apply rt_step; exists e; auto].
Qed.

Lemma index_of_le : forall n l, index_of n l <= length l.
Proof. intros n l; induction l as [|x r IH]; simpl; [lia|]. destruct (Nat.eqb n x); lia. Qed.

Lemma to_sink : forall g n, wf g -> acyclic g -> is_node g n -> exists t, no_output g t /\ path g n t.
Proof.
  intros g n W A. destruct (toposort_some g W A) as (o & _ & V).
  pose proof (valid_order_rank g o W V) as R.
  remember (length o - index_of n o) as k eqn:Ek. revert n Ek. induction k as [k IH] using lt_wf_ind; intros n Ek Hn.
  destruct (Nat.eq_dec (out_degree g n) 0) as [Z|Z].
  - exists n; split; [apply no_output_iff; auto|apply rt_refl].
  - apply out_degree_pos in Z; destruct Z as (e & He & Es).
    destruct (IH (length o - index_of (e_dst e) o)) with (n := e_dst e) as (s & Hs & Ps).
    + assert (C : connects g n (e_dst e)) by (exists e; auto). pose proof (R _ _ C).
      pose proof (index_of_le (e_dst e) o). lia.
    + reflexivity.
    + apply (wf_ends g W e He).
    + exists s; split; [exact Hs|]. eapply rt_trans; [apply rt_step; exists e; split; [exact He|auto]|exact Ps].
Qed.

(* all three facts along a run *)
Lemma run_terminals : forall L g os g', evo_run L g os g' -> wf g -> acyclic g ->
  (forall n, no_input g' n <-> no_input g n) /\ (forall n, no_output g' n <-> no_output g n) /\
  (forall n c, no_input g n \/ no_output g n -> (model_at g n c <-> model_at g' n c)).
Proof.
  intros L g os g' R; induction R as [g|g o g' os g'' S _ IH]; intros W A; [tauto|].
  destruct (step_effect L g o g' W A S) as [W' E].
  pose proof (effect_acyclic L g o g' W A E) as A'.
  destruct (IH W' A') as (I1 & I2 & I3).
  destruct (effect_terminals L g o g' W A W' E) as [T1 T2].
  split; [|split].
  - intros n; rewrite I1; apply T1.
  - intros n; rewrite I2; apply T2.
  - intros n c T. rewrite <- (I3 n c) by (rewrite T1, T2; exact T). exact (effect_terminal_model L g o g' n W A W' E T c).
Qed.

(** ** Protected components *)

Lemma filter_app : forall {A} (f : A -> bool) l1 l2, filter f (l1 ++ l2) = filter f l1 ++ filter f l2.
Proof. intros; apply List.filter_app. Qed.

Lemma NoDup_filter_fst : forall (l : list (nat * ndata)) v dv, NoDup (map fst l) -> In (v, dv) l ->
  Permutation l ((v, dv) :: filter (fun p => negb (Nat.eqb (fst p) v)) l).
Proof.
  intros l v dv; induction l as [|[m x] r IH]; simpl; [tauto|].
  intros ND Hin; inversion ND as [|? ? Hn Hr]; subst. destruct Hin as [E|Hin].
  - injection E as -> ->. rewrite Nat.eqb_refl; simpl. constructor.
    rewrite filter_true; [apply Permutation_refl|]. intros [k y] Hk; simpl; apply negb_true_iff, Nat.eqb_neq.
    intros ->; apply Hn; change v with (fst (v, y)); apply in_map; exact Hk.
  - destruct (Nat.eqb_spec m v) as [->|Hne]; simpl.
    + exfalso; apply Hn; change v with (fst (v, dv)); apply in_map; exact Hin.
    + eapply Permutation_trans; [constructor; apply IH; assumption|apply perm_swap].
Qed.

Lemma set_assoc_perm : forall (l : list (nat * ndata)) n d0 d, NoDup (map fst l) -> In (n, d0) l ->
  exists r, Permutation l ((n, d0) :: r) /\ Permutation (set_assoc n d l) ((n, d) :: r).
Proof.
  intros l n d0 d ND H. destruct (set_assoc_split n d0 d l (In_assoc _ _ _ ND H)) as (l1 & l2 & -> & ->).
  exists (l1 ++ l2); split; apply Permutation_sym, Permutation_middle.
Qed.

Definition prot_nodes (l : list (nat * ndata)) : list comp := filter cprot (map (fun p => n_model (snd p)) l).
Definition prot_edges (l : list (node * node * edata)) : list comp := filter cprot (map (fun t => e_model (snd t)) l).

Lemma protected_split : forall g, protected_components g = prot_nodes (g_nodes g) ++ prot_edges (triples g).
Proof.
  intros g; unfold protected_components, components, prot_nodes, prot_edges, triples.
  rewrite filter_app; f_equal; f_equal. rewrite map_map; reflexivity.
Qed.

Lemma prot_nodes_perm : forall l l', Permutation l l' -> Permutation (prot_nodes l) (prot_nodes l').
Proof. intros; apply filter_perm, Permutation_map; assumption. Qed.
Lemma prot_edges_perm : forall l l', Permutation l l' -> Permutation (prot_edges l) (prot_edges l').
Proof. intros; apply filter_perm, Permutation_map; assumption. Qed.

Lemma effect_protected : forall L g o g', wf g -> acyclic g -> wf g' -> effect L g o g' ->
  Permutation (protected_components g') (protected_components g).
Proof.
  intros L g o g' W A W' H; rewrite !protected_split; destruct H as
    [e nid nn ne lft g' He HI Fr _ Pne _ Pnn _ _ _ Gn Ge
    |a b ne o g' Na Nb Hab Oa Ob V I _ Pne _ Gn Ge
    |e du dv He _ _ Pe _ _ _ _ Hp
    |e n0 du dv save g' He Hn Iu Ov Pe Du Pu Dv Pv Np Sv Gn Gt _
    | |m d c' Dm Pm Im Om _ _ Pc _|e c' He Pe _ _ Pc _].
  - apply Permutation_app.
    + rewrite Gn. unfold prot_nodes; rewrite map_app, filter_app; simpl. rewrite Pnn, app_nil_r. apply Permutation_refl.
    + eapply Permutation_trans; [apply prot_edges_perm, Permutation_map; exact Ge|].
      eapply Permutation_trans; [|apply prot_edges_perm, Permutation_sym, Permutation_map; apply (remove_edge_perm g e W He)].
      unfold prot_edges; simpl. destruct lft; simpl; rewrite Pne; apply Permutation_refl.
  - rewrite Gn; apply Permutation_app_head.
    eapply Permutation_trans; [apply prot_edges_perm, Permutation_map; exact Ge|].
    unfold prot_edges; simpl; rewrite Pne; apply Permutation_refl.
  - simpl g_nodes; apply Permutation_app_head.
    eapply Permutation_trans; [|apply prot_edges_perm, Permutation_sym, Permutation_map; apply (remove_edge_perm g e W He)].
    unfold prot_edges; simpl; rewrite Pe; apply Permutation_refl.
  - pose proof (acyclic_no_loop g e A He) as NL.
    apply Permutation_app.
    + assert (Ps : cprot (n_model save) = false).
      { destruct Hn as [->| ->]; [rewrite Du in Sv|rewrite Dv in Sv]; injection Sv as <-; assumption. }
      apply node_data_In in Du; apply node_data_In in Dv.
      pose proof (NoDup_filter_fst (g_nodes g) (e_dst e) dv (wf_nodes g W) Dv) as P1.
      assert (Hu : In (e_src e, du) (filter (fun p => negb (Nat.eqb (fst p) (e_dst e))) (g_nodes g))).
      { apply filter_In; split; [exact Du|]; simpl; apply negb_true_iff, Nat.eqb_neq; exact NL. }
      destruct (set_assoc_perm _ (e_src e) du save (NoDup_map_filter _ _ _ (wf_nodes g W)) Hu) as (r & P2 & P3).
      rewrite Gn. eapply Permutation_trans; [apply prot_nodes_perm; exact P3|].
      apply Permutation_sym. eapply Permutation_trans; [apply prot_nodes_perm; exact P1|].
      eapply Permutation_trans; [apply prot_nodes_perm; constructor; exact P2|].
      unfold prot_nodes; simpl. rewrite Pv, Pu, Ps. apply Permutation_refl.
    + eapply Permutation_trans; [apply prot_edges_perm; exact Gt|].
      assert (E : forall l, prot_edges (map (redir (e_src e) (e_dst e)) l) = prot_edges l).
      { intros l; unfold prot_edges; rewrite map_map; f_equal; apply map_ext; intros [[a b] d]; reflexivity. }
      rewrite E.
      eapply Permutation_trans; [|apply prot_edges_perm, Permutation_sym, Permutation_map; apply (remove_edge_perm g e W He)].
      unfold prot_edges; simpl; rewrite Pe; apply Permutation_refl.
  - apply Permutation_refl.
  - apply Permutation_app_tail. apply node_data_In in Dm.
    destruct (set_assoc_perm _ m d (mkND c' (n_name d)) (wf_nodes g W) Dm) as (r & P2 & P3).
    simpl g_nodes. eapply Permutation_trans; [apply prot_nodes_perm; exact P3|].
    apply Permutation_sym. eapply Permutation_trans; [apply prot_nodes_perm; exact P2|].
    unfold prot_nodes; simpl; rewrite Pm, Pc; apply Permutation_refl.
  - apply Permutation_app_head.
    eapply Permutation_trans; [apply prot_edges_perm, Permutation_map, (set_edge_data_perm g e _ W He)|].
    eapply Permutation_trans; [|apply prot_edges_perm, Permutation_sym, Permutation_map; apply (remove_edge_perm g e W He)].
    unfold prot_edges; simpl; rewrite Pe, Pc; apply Permutation_refl.
Qed.
