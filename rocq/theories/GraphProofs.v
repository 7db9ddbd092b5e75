(** Lemmas about the graph model. *)
From Coq Require Import List Arith Bool Lia Relations Permutation.
From Verif Require Import GraphModel GraphSpec.
Import ListNotations.

Global Arguments eid_eqb : simpl never.
Global Arguments e_id : simpl never.

(** ** Lists *)

Lemma mem_true : forall n l, mem n l = true <-> In n l.
Proof.
  intros n l; unfold mem; rewrite existsb_exists; split.
  - intros (x & Hx & He); apply Nat.eqb_eq in He; subst; exact Hx.
  - intros H; exists n; split; [exact H | apply Nat.eqb_refl].
Qed.

Lemma mem_false : forall n l, mem n l = false <-> ~ In n l.
Proof.
  intros n l; rewrite <- mem_true; destruct (mem n l); split; congruence.
Qed.

Lemma eid_eqb_eq : forall a b, eid_eqb a b = true <-> a = b.
Proof.
  intros [[u v] k] [[u' v'] k']; unfold eid_eqb.
  rewrite !andb_true_iff, !Nat.eqb_eq; split.
  - intros [[-> ->] ->]; reflexivity.
  - intros H; inversion H; auto.
Qed.

Lemma eid_eqb_neq : forall a b, eid_eqb a b = false <-> a <> b.
Proof.
  intros a b; rewrite <- eid_eqb_eq; destruct (eid_eqb a b); split; congruence.
Qed.

Lemma eid_eqb_refl : forall a, eid_eqb a a = true.
Proof. intros a; apply eid_eqb_eq; reflexivity. Qed.

Lemma cls_eqb_eq : forall a b, cls_eqb a b = true <-> a = b.
Proof. intros a b; unfold cls_eqb; destruct (cls_eq_dec a b); split; congruence. Qed.

Lemma assoc_In : forall {A} n (d : A) l, assoc n l = Some d -> In (n, d) l.
Proof.
  intros A n d l; induction l as [|[m x] r IH]; simpl; [discriminate|].
  destruct (Nat.eqb_spec n m) as [->|Hne]; intros H.
  - injection H as ->; left; reflexivity.
  - right; apply IH; exact H.
Qed.

Lemma assoc_None : forall {A} n (l : list (nat * A)), assoc n l = None <-> ~ In n (map fst l).
Proof.
  intros A n l; induction l as [|[m x] r IH]; simpl; [tauto|].
  destruct (Nat.eqb_spec n m) as [->|Hne].
  - split; [discriminate | intros H; exfalso; apply H; left; reflexivity].
  - rewrite IH; split; [intros H [E|E]; [congruence|tauto] | tauto].
Qed.

Lemma In_assoc : forall {A} n (d : A) l, NoDup (map fst l) -> In (n, d) l -> assoc n l = Some d.
Proof.
  intros A n d l; induction l as [|[m x] r IH]; simpl; [tauto|].
  intros Hnd [E|E].
  - injection E as -> ->; rewrite Nat.eqb_refl; reflexivity.
  - inversion Hnd as [|? ? Hm Hr]; subst.
    destruct (Nat.eqb_spec n m) as [->|Hne].
    + exfalso; apply Hm; change m with (fst (m, d)); apply in_map; exact E.
    + apply IH; assumption.
Qed.

Lemma In_fst_ex : forall {A} n (l : list (nat * A)), In n (map fst l) <-> exists d, In (n, d) l.
Proof.
  intros A n l; rewrite in_map_iff; split.
  - intros ([m d] & E & H); simpl in E; subst; exists d; exact H.
  - intros (d & H); exists (n, d); auto.
Qed.

Lemma set_assoc_fst : forall {A} n (d : A) l, map fst (set_assoc n d l) = map fst l.
Proof.
  intros A n d l; induction l as [|[m x] r IH]; simpl; [reflexivity|].
  destruct (Nat.eqb n m); simpl; congruence.
Qed.

Lemma assoc_set_assoc : forall {A} n m (d : A) l, In n (map fst l) ->
  assoc m (set_assoc n d l) = if Nat.eqb m n then Some d else assoc m l.
Proof.
  intros A n m d l; induction l as [|[k x] r IH]; simpl; [tauto|].
  intros H; destruct (Nat.eqb_spec n k) as [->|Hne]; simpl.
  - destruct (Nat.eqb_spec m k); reflexivity.
  - destruct (Nat.eqb_spec m k) as [->|Hmk].
    + destruct (Nat.eqb_spec k n); [congruence|reflexivity].
    + apply IH; destruct H; [congruence|assumption].
Qed.

Lemma set_assoc_split : forall {A} n (d0 d : A) l, assoc n l = Some d0 ->
  exists l1 l2, l = l1 ++ (n, d0) :: l2 /\ set_assoc n d l = l1 ++ (n, d) :: l2.
Proof.
  intros A n d0 d l; induction l as [|[m x] r IH]; simpl; [discriminate|].
  destruct (Nat.eqb_spec n m) as [->|Hne]; intros H.
  - injection H as ->; exists [], r; auto.
  - destruct (IH H) as (l1 & l2 & E1 & E2); exists ((m, x) :: l1), l2; simpl; split; congruence.
Qed.

Lemma filter_perm : forall {A} (f : A -> bool) l l', Permutation l l' -> Permutation (filter f l) (filter f l').
Proof.
  intros A f l l' H; induction H; simpl.
  - constructor.
  - destruct (f x); [constructor|]; assumption.
  - destruct (f x), (f y); try constructor; try apply Permutation_refl; apply perm_swap.
  - eapply Permutation_trans; eassumption.
Qed.

Lemma filter_true : forall {A} (f : A -> bool) l, (forall x, In x l -> f x = true) -> filter f l = l.
Proof.
  intros A f l; induction l as [|x r IH]; simpl; intros H; [reflexivity|].
  rewrite (H x) by (left; reflexivity); rewrite IH; [reflexivity|].
  intros y Hy; apply H; right; exact Hy.
Qed.

Lemma filter_nil : forall {A} (f : A -> bool) l, (forall x, In x l -> f x = false) -> filter f l = [].
Proof.
  intros A f l; induction l as [|x r IH]; simpl; intros H; [reflexivity|].
  rewrite (H x) by (left; reflexivity); apply IH; intros y Hy; apply H; right; exact Hy.
Qed.

Lemma filter_filter : forall {A} (f g : A -> bool) l, filter f (filter g l) = filter (fun x => g x && f x) l.
Proof.
  intros A f g l; induction l as [|x r IH]; simpl; [reflexivity|].
  destruct (g x); simpl; [destruct (f x)|]; rewrite ?IH; reflexivity.
Qed.

Lemma filter_split_perm : forall {A} (f : A -> bool) l,
  Permutation l (filter f l ++ filter (fun x => negb (f x)) l).
Proof.
  intros A f l; induction l as [|x r IH]; simpl; [constructor|].
  destruct (f x); simpl.
  - constructor; exact IH.
  - eapply Permutation_trans; [constructor; exact IH|]; apply Permutation_middle.
Qed.

Lemma NoDup_map_filter : forall {A B} (h : A -> B) f l, NoDup (map h l) -> NoDup (map h (filter f l)).
Proof.
  intros A B h f l; induction l as [|x r IH]; simpl; intros H; [constructor|].
  inversion H as [|? ? Hn Hr]; subst; destruct (f x); simpl; [|auto].
  constructor; [|auto]. intros Hin; apply Hn.
  apply in_map_iff in Hin; destruct Hin as (y & E & Hy); apply filter_In in Hy.
  rewrite <- E; apply in_map; tauto.
Qed.

Lemma NoDup_map_inj_In : forall {A B} (h : A -> B) l x y,
  NoDup (map h l) -> In x l -> In y l -> h x = h y -> x = y.
Proof.
  intros A B h l x y; induction l as [|z r IH]; simpl; [tauto|].
  intros H; inversion H as [|? ? Hn Hr]; subst.
  intros [->|Hx] [->|Hy] E; [reflexivity| | |auto].
  - exfalso; apply Hn; rewrite E; apply in_map; exact Hy.
  - exfalso; apply Hn; rewrite <- E; apply in_map; exact Hx.
Qed.

(** ** Nodes *)

Lemma node_ids_is_node : forall g n, In n (node_ids g) <-> is_node g n.
Proof. intros g n; unfold node_ids, is_node; apply In_fst_ex. Qed.

Lemma has_node_true : forall g n, has_node g n = true <-> is_node g n.
Proof. intros; unfold has_node; rewrite mem_true; apply node_ids_is_node. Qed.

Lemma node_data_In : forall g n d, node_data g n = Some d -> In (n, d) (g_nodes g).
Proof. intros g n d; apply assoc_In. Qed.

Lemma node_data_iff : forall g n d, wf g -> (node_data g n = Some d <-> In (n, d) (g_nodes g)).
Proof.
  intros g n d H; split; [apply node_data_In|]; apply In_assoc; apply (wf_nodes g H).
Qed.

Lemma node_data_ex : forall g n, is_node g n -> exists d, node_data g n = Some d.
Proof.
  intros g n H; destruct (node_data g n) as [d|] eqn:E; [exists d; reflexivity|].
  exfalso; apply assoc_None in E; apply E; apply In_fst_ex; exact H.
Qed.

(** ** Keys and insertion *)

Lemma mem_dec_In : forall (n : nat) l, {In n l} + {~ In n l}.
Proof. intros; apply in_dec; apply Nat.eq_dec. Defined.

(* if k, k+1, ..., k+f-1 are all used there are at least f keys *)
Lemma next_key_used : forall f ks k, In (next_key f ks k) ks ->
  forall i, i < f -> In (k + i) ks.
Proof.
  induction f as [|f IH]; intros ks k H i Hi; [lia|].
  simpl in H. destruct (mem k ks) eqn:E.
  - apply mem_true in E. destruct i as [|i]; [rewrite Nat.add_0_r; exact E|].
    replace (k + S i) with (S k + i) by lia. apply IH; [exact H|lia].
  - apply mem_false in E; contradiction.
Qed.

Lemma next_key_fresh : forall ks k, ~ In (next_key (S (length ks)) ks k) ks.
Proof.
  intros ks k H.
  pose proof (next_key_used _ _ _ H) as U.
  assert (Hincl : incl (map (fun i => k + i) (seq 0 (S (length ks)))) ks).
  { intros x Hx; apply in_map_iff in Hx; destruct Hx as (i & <- & Hi); apply in_seq in Hi; apply U; lia. }
  assert (Hnd : NoDup (map (fun i => k + i) (seq 0 (S (length ks))))).
  { apply FinFun.Injective_map_NoDup; [intros a b E; cbv beta in E; lia | apply seq_NoDup]. }
  pose proof (NoDup_incl_length Hnd Hincl) as L.
  rewrite map_length, seq_length in L; lia.
Qed.

Lemma same_pair_true : forall u v e, same_pair u v e = true <-> e_src e = u /\ e_dst e = v.
Proof. intros; unfold same_pair; rewrite andb_true_iff, !Nat.eqb_eq; tauto. Qed.

Lemma new_key_fresh : forall es u v e, In e es -> e_id e <> (u, v, new_edge_key es u v).
Proof.
  intros es u v e H E. unfold e_id in E; injection E as E1 E2 E3.
  apply (next_key_fresh (pair_keys es u v) (length (pair_keys es u v))).
  unfold new_edge_key in E3; cbv zeta in E3; rewrite <- E3.
  unfold pair_keys; apply in_map; apply filter_In; split; [exact H|].
  apply same_pair_true; auto.
Qed.

Lemma insert_edge_perm : forall x es, Permutation (insert_edge x es) (x :: es).
Proof.
  intros x es; induction es as [|e r IH]; simpl; [constructor; constructor|].
  destruct (_ && _); [apply perm_swap|].
  eapply Permutation_trans; [constructor; exact IH|apply perm_swap].
Qed.

(** ** Well-formedness of the primitive operations *)

Lemma wf_empty : wf empty_graph.
Proof. constructor; simpl; [constructor | tauto | constructor]. Qed.

Lemma wf_intro_perm : forall g es, wf g -> Permutation es (g_edges g) -> wf (mkG (g_nodes g) es).
Proof.
  intros g es [H1 H2 H3] P; constructor; simpl; [exact H1| |].
  - intros e He; apply (H2 e); eapply Permutation_in; eassumption.
  - eapply Permutation_NoDup; [apply Permutation_sym; apply Permutation_map; exact P|exact H3].
Qed.

Lemma add_edge_edges : forall g u v d,
  Permutation (g_edges (add_edge g u v d)) (mkE u v (new_edge_key (g_edges g) u v) d :: g_edges g).
Proof. intros; apply insert_edge_perm. Qed.

Lemma In_add_edge : forall g u v d e,
  In e (g_edges (add_edge g u v d)) <-> e = mkE u v (new_edge_key (g_edges g) u v) d \/ In e (g_edges g).
Proof.
  intros; split; intros H.
  - apply (Permutation_in _ (add_edge_edges g u v d)) in H; destruct H as [H|H]; auto.
  - apply (Permutation_in _ (Permutation_sym (add_edge_edges g u v d))); destruct H as [H|H]; [left|right]; auto.
Qed.

Lemma wf_add_edge : forall g u v d, wf g -> is_node g u -> is_node g v -> wf (add_edge g u v d).
Proof.
  intros g u v d [H1 H2 H3] Hu Hv; constructor.
  - exact H1.
  - intros e He; apply In_add_edge in He; destruct He as [->|He]; [split; assumption | apply H2; exact He].
  - eapply Permutation_NoDup.
    + apply Permutation_sym; apply Permutation_map; apply add_edge_edges.
    + simpl; constructor; [|exact H3].
      intros Hin; apply in_map_iff in Hin; destruct Hin as (e & E & He).
      apply (new_key_fresh (g_edges g) u v e He); exact E.
Qed.

Lemma add_node_fresh : forall g n d, ~ is_node g n -> add_node g n d = mkG (g_nodes g ++ [(n, d)]) (g_edges g).
Proof.
  intros g n d H; unfold add_node; destruct (has_node g n) eqn:E; [|reflexivity].
  exfalso; apply H, has_node_true, E.
Qed.

Lemma wf_add_node : forall g n d, wf g -> wf (add_node g n d).
Proof.
  intros g n d [H1 H2 H3]; unfold add_node; destruct (has_node g n) eqn:E.
  - constructor; simpl; [rewrite set_assoc_fst; exact H1| |exact H3].
    intros e He; destruct (H2 e He) as [Ha Hb]; unfold is_node; simpl.
    split; apply In_fst_ex; rewrite set_assoc_fst; apply In_fst_ex; assumption.
  - constructor; simpl; [| |exact H3].
    + rewrite map_app; simpl; eapply Permutation_NoDup; [apply Permutation_cons_append|].
      constructor; [|exact H1]. unfold has_node in E; apply mem_false in E; exact E.
    + intros e He; destruct (H2 e He) as [(a & Ha) (b & Hb)]; split; eexists; simpl; apply in_or_app; left; eassumption.
Qed.

Lemma is_node_add_node : forall g n d m, is_node (add_node g n d) m <-> m = n \/ is_node g m.
Proof.
  intros g n d m; rewrite <- !node_ids_is_node; unfold add_node, node_ids; destruct (has_node g n) eqn:E; simpl.
  - rewrite set_assoc_fst; split; [auto|intros [->|H]; [|exact H]].
    unfold has_node in E; apply mem_true in E; exact E.
  - rewrite map_app, in_app_iff; simpl; intuition congruence.
Qed.

Lemma In_remove_edge : forall g i e, In e (g_edges (remove_edge g i)) <-> In e (g_edges g) /\ e_id e <> i.
Proof.
  intros; simpl; rewrite filter_In, negb_true_iff, eid_eqb_neq; tauto.
Qed.

Lemma wf_remove_edge : forall g i, wf g -> wf (remove_edge g i).
Proof.
  intros g i [H1 H2 H3]; constructor; simpl; [exact H1| |apply NoDup_map_filter; exact H3].
  intros e He; apply filter_In in He; apply H2; tauto.
Qed.

Lemma is_node_remove_node : forall g n m, is_node (remove_node g n) m <-> is_node g m /\ m <> n.
Proof.
  intros g n m; unfold is_node; simpl; split.
  - intros (d & H); apply filter_In in H; destruct H as [H E]; simpl in E.
    apply negb_true_iff, Nat.eqb_neq in E; split; [exists d; exact H|exact E].
  - intros ((d & H) & E); exists d; apply filter_In; split; [exact H|]; simpl.
    apply negb_true_iff, Nat.eqb_neq; exact E.
Qed.

Lemma In_remove_node : forall g n e,
  In e (g_edges (remove_node g n)) <-> In e (g_edges g) /\ e_src e <> n /\ e_dst e <> n.
Proof.
  intros; simpl; rewrite filter_In, andb_true_iff, !negb_true_iff, !Nat.eqb_neq; tauto.
Qed.

Lemma wf_remove_node : forall g n, wf g -> wf (remove_node g n).
Proof.
  intros g n [H1 H2 H3]; constructor.
  - simpl; apply NoDup_map_filter; exact H1.
  - intros e He; apply In_remove_node in He; destruct He as (He & Ha & Hb).
    destruct (H2 e He); split; apply is_node_remove_node; split; assumption.
  - simpl; apply NoDup_map_filter; exact H3.
Qed.

Lemma find_edge_In : forall g i e, find_edge g i = Some e -> In e (g_edges g) /\ e_id e = i.
Proof.
  intros g i e H; apply find_some in H; destruct H as [H E]; apply eid_eqb_eq in E; auto.
Qed.

Lemma In_find_edge : forall g e, wf g -> In e (g_edges g) -> find_edge g (e_id e) = Some e.
Proof.
  intros g e W He. destruct (find_edge g (e_id e)) as [e'|] eqn:E.
  - apply find_edge_In in E; destruct E as [Hin Eid]. f_equal.
    apply (NoDup_map_inj_In e_id (g_edges g)); [exact (wf_keys g W)|exact Hin|exact He|exact Eid].
  - exfalso. pose proof (find_none _ _ E e He) as F; simpl in F; rewrite eid_eqb_refl in F; discriminate.
Qed.

Lemma remove_edge_perm : forall g e, wf g -> In e (g_edges g) ->
  Permutation (g_edges g) (e :: g_edges (remove_edge g (e_id e))).
Proof.
  intros g e W He; simpl.
  pose proof (wf_keys g W) as ND. change (NoDup (map e_id (g_edges g))) in ND.
  induction (g_edges g) as [|x r IH]; [contradiction|].
  simpl in ND; inversion ND as [|? ? Hn Hr]; subst; simpl.
  destruct He as [->|He].
  - rewrite eid_eqb_refl; simpl. rewrite filter_true; [apply Permutation_refl|].
    intros y Hy; apply negb_true_iff, eid_eqb_neq; intros E; apply Hn; rewrite <- E; apply in_map; exact Hy.
  - destruct (eid_eqb (e_id x) (e_id e)) eqn:E; simpl.
    + apply eid_eqb_eq in E; exfalso; apply Hn; rewrite E; apply in_map; exact He.
    + eapply Permutation_trans; [constructor; apply IH; assumption|apply perm_swap].
Qed.

(** ** Degrees and views *)

Lemma in_degree_zero : forall g n, in_degree g n = 0 <-> forall e, In e (g_edges g) -> e_dst e <> n.
Proof.
  intros g n; unfold in_degree, nx_in_edges; rewrite length_zero_iff_nil; split.
  - intros H e He E; assert (Hin : In e (filter (fun e => Nat.eqb (e_dst e) n) (g_edges g))).
    { apply filter_In; split; [exact He|apply Nat.eqb_eq; exact E]. }
    rewrite H in Hin; exact Hin.
  - intros H; apply filter_nil; intros e He; apply Nat.eqb_neq; apply H; exact He.
Qed.

Lemma out_degree_zero : forall g n, out_degree g n = 0 <-> forall e, In e (g_edges g) -> e_src e <> n.
Proof.
  intros g n; unfold out_degree, nx_out_edges; rewrite length_zero_iff_nil; split.
  - intros H e He E; assert (Hin : In e (filter (fun e => Nat.eqb (e_src e) n) (g_edges g))).
    { apply filter_In; split; [exact He|apply Nat.eqb_eq; exact E]. }
    rewrite H in Hin; exact Hin.
  - intros H; apply filter_nil; intros e He; apply Nat.eqb_neq; apply H; exact He.
Qed.

Lemma in_degree_pos : forall g n, in_degree g n <> 0 <-> exists e, In e (g_edges g) /\ e_dst e = n.
Proof.
  intros g n; unfold in_degree, nx_in_edges; split.
  - destruct (filter _ _) as [|e r] eqn:E; [simpl; tauto|]; intros _; exists e.
    assert (H : In e (e :: r)) by (left; reflexivity); rewrite <- E in H; apply filter_In in H.
    destruct H as [H1 H2]; apply Nat.eqb_eq in H2; auto.
  - intros (e & He & E) Z.
    apply (proj1 (in_degree_zero g n) Z e He E).
Qed.

Lemma out_degree_pos : forall g n, out_degree g n <> 0 <-> exists e, In e (g_edges g) /\ e_src e = n.
Proof.
  intros g n; unfold out_degree, nx_out_edges; split.
  - destruct (filter _ _) as [|e r] eqn:E; [simpl; tauto|]; intros _; exists e.
    assert (H : In e (e :: r)) by (left; reflexivity); rewrite <- E in H; apply filter_In in H.
    destruct H as [H1 H2]; apply Nat.eqb_eq in H2; auto.
  - intros (e & He & E) Z.
    apply (proj1 (out_degree_zero g n) Z e He E).
Qed.

Lemma In_edges_view : forall g e, wf g -> (In e (edges_view g) <-> In e (g_edges g)).
Proof.
  intros g e W; unfold edges_view; rewrite in_flat_map; split.
  - intros (n & _ & H); apply filter_In in H; tauto.
  - intros H; exists (e_src e); split.
    + apply node_ids_is_node; apply (wf_ends g W e H).
    + apply filter_In; split; [exact H|apply Nat.eqb_refl].
Qed.

Lemma flat_map_src_perm : forall ns es, NoDup ns -> (forall e, In e es -> In (e_src e) ns) ->
  Permutation (flat_map (fun n => filter (fun e => Nat.eqb (e_src e) n) es) ns) es.
Proof.
  induction ns as [|n ns IH]; intros es ND H; simpl.
  - destruct es as [|e r]; [constructor|exfalso; apply (H e); left; reflexivity].
  - inversion ND as [|? ? Hn Hr]; subst.
    eapply Permutation_trans; [|apply Permutation_sym; apply (filter_split_perm (fun e => Nat.eqb (e_src e) n))].
    apply Permutation_app_head.
    eapply Permutation_trans; [|apply (IH (filter (fun e => negb (Nat.eqb (e_src e) n)) es) Hr)].
    + clear H ND IH. induction ns as [|m ms IHm]; simpl; [constructor|].
      inversion Hr as [|? ? Hm Hms]; subst.
      apply Permutation_app.
      * rewrite filter_filter; apply Permutation_refl'. apply filter_ext_in; intros e He.
        destruct (Nat.eqb_spec (e_src e) m) as [->|]; [|rewrite andb_false_r; reflexivity].
        destruct (Nat.eqb_spec m n) as [->|]; [exfalso; apply Hn; left; reflexivity|reflexivity].
      * apply IHm; [intros Hc; apply Hn; right; exact Hc|assumption].
    + intros e He; apply filter_In in He; destruct He as [He E]; apply negb_true_iff, Nat.eqb_neq in E.
      destruct (H e He); [congruence|assumption].
Qed.

Lemma edges_view_perm : forall g, wf g -> Permutation (edges_view g) (g_edges g).
Proof.
  intros g W; apply flat_map_src_perm; [exact (wf_nodes g W)|].
  intros e He; apply node_ids_is_node; apply (wf_ends g W e He).
Qed.

Lemma get_in_degree_eq : forall g n, wf g -> get_in_degree g n = in_degree g n.
Proof.
  intros g n W; unfold get_in_degree, get_in_edges, in_degree, nx_in_edges.
  apply Permutation_length, filter_perm, edges_view_perm, W.
Qed.

Lemma get_out_degree_eq : forall g n, wf g -> get_out_degree g n = out_degree g n.
Proof.
  intros g n W; unfold get_out_degree, get_out_edges, out_degree, nx_out_edges.
  apply Permutation_length, filter_perm, edges_view_perm, W.
Qed.

(** ** Reachability *)

Lemma connects_intro : forall g e, In e (g_edges g) -> connects g (e_src e) (e_dst e).
Proof. intros g e H; exists e; auto. Qed.

Lemma grow_In : forall es vis n,
  In n (grow es vis) <-> In n vis \/ exists e, In e es /\ In (e_src e) vis /\ e_dst e = n.
Proof.
  intros es vis n; unfold grow; rewrite nodup_In, in_app_iff, in_map_iff; split.
  - intros [H|(e & E & H)]; [left; exact H|].
    apply filter_In in H; destruct H as [H M]; apply mem_true in M; right; exists e; auto.
  - intros [H|(e & H & M & E)]; [left; exact H|right; exists e; split; [exact E|]].
    apply filter_In; split; [exact H|apply mem_true; exact M].
Qed.

(* walk with a given list of visited nodes (excluding the start) *)
Inductive walk (g : graph) : node -> list node -> node -> Prop :=
| walk_nil : forall n, walk g n [] n
| walk_cons : forall n m l k, connects g n m -> walk g m l k -> walk g n (m :: l) k.

Lemma walk_path : forall g n l m, walk g n l m -> path g n m.
Proof.
  intros g n l m H; induction H as [|n m l k C _ IH]; [apply rt_refl|].
  eapply rt_trans; [apply rt_step; exact C|exact IH].
Qed.

Lemma walk_app : forall g n l m l' k, walk g n l m -> walk g m l' k -> walk g n (l ++ l') k.
Proof.
  intros g n l m l' k H; induction H; intros H'; simpl; [exact H'|]. econstructor; eauto.
Qed.

Lemma path_walk : forall g n m, path g n m -> exists l, walk g n l m.
Proof.
  intros g n m H; induction H as [x y C| |x y z _ [l1 H1] _ [l2 H2]].
  - exists [y]; econstructor; [exact C|constructor].
  - exists []; constructor.
  - exists (l1 ++ l2); eapply walk_app; eassumption.
Qed.

Lemma walk_split : forall g n l1 x l2 m, walk g n (l1 ++ x :: l2) m -> walk g n (l1 ++ [x]) x /\ walk g x l2 m.
Proof.
  intros g n l1; revert n; induction l1 as [|y l1 IH]; intros n x l2 m H; simpl in *.
  - inversion H; subst; split; [econstructor; [eassumption|constructor]|assumption].
  - inversion H; subst. destruct (IH _ _ _ _ H5) as [Ha Hb]; split; [econstructor; eassumption|exact Hb].
Qed.

(* every walk can be shortened to one without repeated nodes *)
Lemma walk_simple : forall k g n l m, length l <= k -> walk g n l m ->
  exists l', walk g n l' m /\ NoDup (n :: l') /\ incl l' l.
Proof.
  induction k as [|k IH]; intros g n l m Hk H.
  - destruct l; [|simpl in Hk; lia]. exists []; split; [exact H|]. split; [repeat constructor; auto|apply incl_refl].
  - destruct (mem_dec_In n l) as [Hin|Hn].
    + apply in_split in Hin; destruct Hin as (l1 & l2 & ->).
      apply walk_split in H; destruct H as [_ H].
      destruct (IH g n l2 m) as (l' & W & ND & I); [rewrite app_length in Hk; simpl in Hk; lia|exact H|].
      exists l'; repeat split; try assumption. intros x Hx; apply in_or_app; right; right; apply I; exact Hx.
    + inversion H; subst; [exists []; split; [constructor|]; split; [repeat constructor; auto|apply incl_refl]|].
      destruct (IH g m0 l0 m) as (l' & W & ND & I); [simpl in Hk; lia|assumption|].
      exists (m0 :: l'); split; [econstructor; eassumption|]. split.
      * constructor; [|exact ND]. intros [E|E]; [subst; apply Hn; left; reflexivity|].
        apply Hn; right; apply I; exact E.
      * intros x [->|Hx]; [left; reflexivity|right; apply I; exact Hx].
Qed.

Lemma reach_fuel_walk : forall f g vis x l m, In x vis -> walk g x l m -> length l <= f ->
  In m (reach_fuel f (g_edges g) vis).
Proof.
  induction f as [|f IH]; intros g vis x l m Hx W L.
  - destruct l; [|simpl in L; lia]. inversion W; subst; exact Hx.
  - simpl. destruct W as [n|n y l k (e & He & Es & Ed) W].
    + apply (IH g _ n [] n); [apply grow_In; left; exact Hx|constructor|simpl; lia].
    + apply (IH g _ y l k); [|exact W|simpl in L; lia].
      apply grow_In; right; exists e; subst; auto.
Qed.

Lemma reach_fuel_sound : forall f g vis m, In m (reach_fuel f (g_edges g) vis) ->
  exists x, In x vis /\ path g x m.
Proof.
  induction f as [|f IH]; intros g vis m H; simpl in H.
  - exists m; split; [exact H|apply rt_refl].
  - destruct (IH _ _ _ H) as (x & Hx & P). apply grow_In in Hx; destruct Hx as [Hx|(e & He & Hs & Ed)].
    + exists x; auto.
    + exists (e_src e); split; [exact Hs|]. eapply rt_trans; [apply rt_step|exact P].
      exists e; auto.
Qed.

Lemma walk_nodes : forall g n l m, wf g -> walk g n l m -> incl l (node_ids g).
Proof.
  intros g n l m W H; induction H as [|n m l k (e & He & Es & Ed) _ IH]; [intros x []|].
  intros x [<-|Hx]; [|apply IH; exact Hx].
  apply node_ids_is_node; rewrite <- Ed; apply (wf_ends g W e He).
Qed.

Lemma has_path_iff : forall g u v, wf g -> (has_path g u v = true <-> path g u v).
Proof.
  intros g u v W; unfold has_path, reachable; rewrite mem_true; split.
  - intros H; apply reach_fuel_sound in H; destruct H as (x & [->|[]] & P); exact P.
  - intros H; apply path_walk in H; destruct H as (l & H).
    destruct (walk_simple (length l) g u l v (le_n _) H) as (l' & W' & ND & _).
    apply (reach_fuel_walk _ g [u] u l' v); [left; reflexivity|exact W'|].
    inversion ND as [|? ? _ ND']; subst.
    pose proof (NoDup_incl_length ND' (walk_nodes g u l' v W W')) as L.
    unfold node_ids in L; rewrite map_length in L; exact L.
Qed.

Lemma has_path_false : forall g u v, wf g -> (has_path g u v = false <-> ~ path g u v).
Proof.
  intros g u v W; rewrite <- (has_path_iff g u v W); destruct (has_path g u v); split; congruence.
Qed.

(** ** Relations helpers *)

Lemma path1_step_path : forall g x y, path1 g x y <-> exists z, connects g x z /\ path g z y.
Proof.
  intros g x y; split.
  - intros H; apply clos_trans_t1n in H; induction H as [x y C|x y z C _ (w & Cw & P)].
    + exists y; split; [exact C|apply rt_refl].
    + exists y; split; [exact C|]. eapply rt_trans; [apply rt_step; exact Cw|exact P].
  - intros (z & C & P). apply clos_rt_rt1n in P. revert x C.
    induction P as [z|z w y Czw _ IH]; intros x C; [apply t_step; exact C|].
    eapply t_trans; [apply t_step; exact C|apply IH; exact Czw].
Qed.

Lemma path_cases : forall g x y, path g x y -> x = y \/ path1 g x y.
Proof.
  intros g x y H; apply clos_rt_rt1n in H; destruct H as [|z t C P]; [left; reflexivity|right].
  apply path1_step_path; exists z; split; [exact C|apply clos_rt1n_rt; exact P].
Qed.

Lemma path1_path : forall g x y, path1 g x y -> path g x y.
Proof.
  intros g x y H; induction H; [apply rt_step; assumption|eapply rt_trans; eassumption].
Qed.

Lemma path1_trans_path : forall g x y z, path1 g x y -> path g y z -> path1 g x z.
Proof.
  intros g x y z H P; apply path_cases in P; destruct P as [<-|P]; [exact H|eapply t_trans; eassumption].
Qed.

Lemma path_trans_path1 : forall g x y z, path g x y -> path1 g y z -> path1 g x z.
Proof.
  intros g x y z P H; apply path_cases in P; destruct P as [->|P]; [exact H|eapply t_trans; eassumption].
Qed.

(* acyclicity by ranking *)
Lemma rank_path1 : forall g (r : node -> nat), (forall u v, connects g u v -> r u < r v) ->
  forall u v, path1 g u v -> r u < r v.
Proof. intros g r H u v P; induction P; [auto|lia]. Qed.

Lemma rank_acyclic : forall g (r : node -> nat), (forall u v, connects g u v -> r u < r v) -> acyclic g.
Proof. intros g r H n P; apply (rank_path1 g r H) in P; lia. Qed.

Lemma path1_mono : forall g g', (forall u v, connects g' u v -> connects g u v) ->
  forall x y, path1 g' x y -> path1 g x y.
Proof. intros g g' H x y P; induction P; [apply t_step; auto|eapply t_trans; eassumption]. Qed.

Lemma path_mono : forall g g', (forall u v, connects g' u v -> connects g u v) ->
  forall x y, path g' x y -> path g x y.
Proof. intros g g' H x y P; induction P; [apply rt_step; auto|apply rt_refl|eapply rt_trans; eassumption]. Qed.

Lemma acyclic_sub : forall g g', (forall u v, connects g' u v -> connects g u v) -> acyclic g -> acyclic g'.
Proof. intros g g' H A n P; apply (A n); apply (path1_mono g g' H); exact P. Qed.

Lemma path_is_node : forall g x y, wf g -> path1 g x y -> is_node g x /\ is_node g y.
Proof.
  intros g x y W P; induction P as [x y (e & He & <- & <-)|]; [apply (wf_ends g W e He)|tauto].
Qed.
