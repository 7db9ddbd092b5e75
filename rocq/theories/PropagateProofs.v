(** Propagation computes the data-flow solution (C17), and what can be measured after it (C18). *)
From Coq Require Import List Arith Bool Lia Permutation.
From Verif Require Import Base GraphModel GraphSpec ParamsModel PropagateModel PropagateSpec GraphProofs TopoProofs.
Import ListNotations.

(** ** The dictionary *)
Lemma place_eqb_eq : forall a b, place_eqb a b = true <-> a = b.
Proof.
  intros [n|i] [m|j]; simpl; split; intro H; try discriminate.
  - apply Nat.eqb_eq in H; congruence.
  - injection H as ->; apply Nat.eqb_refl.
  - apply eid_eqb_eq in H; congruence.
  - injection H as ->; apply eid_eqb_refl.
Qed.
Lemma saved_same : forall {S} p (x : S) sv, saved (save p x sv) p = Some x.
Proof. intros S p x sv; simpl. replace (place_eqb p p) with true by (symmetry; apply place_eqb_eq; reflexivity). reflexivity. Qed.
Lemma saved_other : forall {S} p q (x : S) sv, q <> p -> saved (save p x sv) q = saved sv q.
Proof. intros S p q x sv H; simpl. destruct (place_eqb q p) eqn:E; [apply place_eqb_eq in E; contradiction|reflexivity]. Qed.
Global Opaque save saved.
Lemma pedge_inj : forall i j, PEdge i = PEdge j -> i = j.
Proof. intros i j H; congruence. Qed.
Lemma saved_nil : forall {S} p, @saved S [] p = None.
Proof. reflexivity. Qed.

(** ** Edge orders *)
Lemma filter_flat_map : forall {A C} (f : C -> bool) (h : A -> list C) l, filter f (flat_map h l) = flat_map (fun a => filter f (h a)) l.
Proof. induction l as [|a l IH]; [reflexivity|]. simpl. rewrite filter_app, IH. reflexivity. Qed.

Lemma in_edges_arriving : forall g n, get_in_edges g n = arriving g n.
Proof.
  intros g n. unfold get_in_edges, edges_view, arriving. rewrite filter_flat_map. unfold node_ids. induction (map fst (g_nodes g)) as [|m l IH]; [reflexivity|].
  simpl. rewrite IH. f_equal. unfold nx_out_edges. rewrite filter_filter. reflexivity.
Qed.

Lemma flat_map_one : forall {C} (h : nat -> list C) n l, NoDup l -> In n l -> (forall m, m <> n -> h m = []) -> flat_map h l = h n.
Proof.
  induction l as [|a l IH]; intros Nd Hin Hz; [contradiction|]. apply NoDup_cons_iff in Nd as [Na Nd]. simpl.
  destruct (Nat.eq_dec a n) as [->|Ne].
  - replace (flat_map h l) with (@nil C); [apply app_nil_r|]. symmetry. clear IH Hin Nd. induction l as [|b l IHl]; [reflexivity|]. simpl.
    rewrite (Hz b); [|intro; subst; apply Na; left; reflexivity]. apply IHl. intro; apply Na; right; assumption.
  - rewrite (Hz a Ne). simpl. destruct Hin as [Hin|Hin]; [contradiction|]. apply IH; assumption.
Qed.

Lemma out_edges_leaving : forall g n, wf g -> is_node g n -> get_out_edges g n = leaving g n.
Proof.
  intros g n W Hn. unfold get_out_edges, edges_view, leaving. rewrite filter_flat_map. rewrite (flat_map_one _ n).
  - unfold nx_out_edges. rewrite filter_filter. apply filter_ext. intro e. destruct (e_src e =? n); reflexivity.
  - exact (wf_nodes g W).
  - apply node_ids_is_node; exact Hn.
  - intros m Hm. unfold nx_out_edges. rewrite filter_filter. apply filter_nil. intros e _. apply andb_false_iff.
    destruct (Nat.eqb_spec (e_src e) m); [right; apply Nat.eqb_neq; congruence|left; reflexivity].
Qed.

Lemma In_leaving : forall g n e, In e (leaving g n) <-> In e (g_edges g) /\ e_src e = n.
Proof. intros. unfold leaving. rewrite filter_In, Nat.eqb_eq. reflexivity. Qed.

Lemma In_arriving : forall g n e, wf g -> (In e (arriving g n) <-> In e (g_edges g) /\ e_dst e = n).
Proof.
  intros g n e W. unfold arriving. rewrite in_flat_map. split.
  - intros (m & _ & H). apply filter_In in H as [H1 H2]. apply andb_true_iff in H2 as [_ H2]. apply Nat.eqb_eq in H2. tauto.
  - intros [H1 H2]. exists (e_src e). split; [apply node_ids_is_node; apply (wf_ends g W e H1)|].
    apply filter_In. split; [exact H1|]. rewrite Nat.eqb_refl; simpl. apply Nat.eqb_eq; exact H2.
Qed.

Lemma leaving_ids : forall g n, wf g -> NoDup (map e_id (leaving g n)).
Proof. intros g n W. apply NoDup_map_filter. exact (wf_keys g W). Qed.

Lemma departures_leaving : forall g n, departures g n = length (leaving g n).
Proof. reflexivity. Qed.

Lemma pre_nil : forall g n, wf g -> (pre g n = [] <-> arriving g n = []).
Proof.
  intros g n W. split; intro H.
  - destruct (arriving g n) as [|e l] eqn:E; [reflexivity|]. exfalso.
    assert (In e (arriving g n)) by (rewrite E; left; reflexivity). apply (In_arriving g n e W) in H0 as [H1 H2].
    assert (X : In (e_src e) (pre g n)).
    { unfold pre. apply nodup_In. apply in_map. unfold nx_in_edges. apply filter_In. split; [exact H1|apply Nat.eqb_eq; exact H2]. }
    rewrite H in X. contradiction.
  - destruct (pre g n) as [|m l] eqn:E; [reflexivity|]. exfalso. assert (X : In m (pre g n)) by (rewrite E; left; reflexivity).
    unfold pre in X. apply nodup_In in X. apply in_map_iff in X as (e & _ & He). unfold nx_in_edges in He. apply filter_In in He as [H1 H2]. apply Nat.eqb_eq in H2.
    assert (In e (arriving g n)) by (apply (In_arriving g n e W); tauto). rewrite H in H0. contradiction.
Qed.

Lemma map_res_ok_spec : forall {A C} (f : A -> res C) l r, map_res f l = Ok r <-> Forall2 (fun a b => f a = Ok b) l r.
Proof.
  induction l as [|a l IH]; intros r; simpl.
  - split; intro H; [injection H as <-; constructor|inversion H; reflexivity].
  - unfold bind. destruct (f a) as [b|e] eqn:E.
    + destruct (map_res f l) as [bs|e] eqn:E2.
      * split; intro H.
        -- injection H as <-. constructor; [exact E|apply IH; reflexivity].
        -- inversion H; subst. assert (y = b) by congruence. subst y. apply IH in H4. injection H4 as ->. reflexivity.
      * split; intro H; [discriminate|]. inversion H; subst. apply IH in H4. discriminate.
    + split; intro H; [discriminate|]. inversion H; subst. congruence.
Qed.

Lemma NoDup_app_disjoint' : forall {A} (l1 l2 : list A) x, NoDup (l1 ++ l2) -> In x l1 -> In x l2 -> False.
Proof.
  intros A l1 l2 x Nd H1 H2. apply in_split in H1 as (a & b & ->). rewrite <- app_assoc in Nd. apply NoDup_remove_2 in Nd. apply Nd. apply in_or_app; right. apply in_or_app; right. exact H2.
Qed.

Section Along.
Context {S X : Type}.
Variable B : behaviour S X.
Variable g : graph.
Variable src : S.
Hypothesis W : wf g.

Definition get (sv : saves S) (e : edge) : S := match saved sv (PEdge (e_id e)) with Some s => s | None => src end.

Lemma inputs_spec : forall sv n, (forall e, In e (g_edges g) -> e_dst e = n -> saved sv (PEdge (e_id e)) <> None) ->
  node_inputs g src sv n = Ok (received g src (get sv) n).
Proof.
  intros sv n H. unfold node_inputs, received. destruct (pre g n) as [|m l] eqn:E.
  - apply (pre_nil g n W) in E. rewrite E. reflexivity.
  - destruct (arriving g n) as [|e0 l0] eqn:Ea; [apply (pre_nil g n W) in Ea; congruence|]. rewrite <- Ea. rewrite in_edges_arriving.
    assert (K : forall e, In e (arriving g n) -> saved sv (PEdge (e_id e)) <> None).
    { intros e He. apply (In_arriving g n e W) in He as [H1 H2]. apply H; assumption. }
    clear Ea E. induction (arriving g n) as [|e l1 IH]; [reflexivity|]. simpl. unfold get at 1.
    destruct (saved sv (PEdge (e_id e))) as [s|] eqn:Es; [|exfalso; apply (K e); [left; reflexivity|exact Es]]. simpl.
    rewrite IH; [reflexivity|]. intros e' He'. apply K. right; exact He'.
Qed.

(** *** one loop over leaving edges *)
Lemma send_keys : forall es i states x sv x' sv' r, send B es i states x sv = (x', sv', r) ->
  forall p, (forall e, In e es -> p <> PEdge (e_id e)) -> saved sv' p = saved sv p.
Proof.
  induction es as [|e es IH]; intros i states x sv x' sv' r H p Hp; simpl in H.
  - injection H as <- <- <-. reflexivity.
  - destruct (nth_error states i) as [s|]; [|injection H as <- <- <-; reflexivity].
    destruct (edge_act B (e_model (e_dat e)) s x) as [x1 [s'|er]]; [|injection H as <- <- <-; reflexivity].
    rewrite (IH _ _ _ _ _ _ _ H p); [|intros e' He'; apply Hp; right; exact He'].
    apply saved_other. apply Hp. left; reflexivity.
Qed.

Lemma send_ok : forall es i states x sv x' sv', steady B g x -> incl es (g_edges g) -> NoDup (map e_id es) -> send B es i states x sv = (x', sv', Ok tt) ->
  x' = x /\ forall j e, nth_error es j = Some e -> exists s v, nth_error states (i + j) = Some s /\
    snd (edge_act B (e_model (e_dat e)) s x) = Ok v /\ saved sv' (PEdge (e_id e)) = Some v.
Proof.
  induction es as [|e es IH]; intros i states x sv x' sv' St In1 Nd H; simpl in H.
  - injection H as <- <-. split; [reflexivity|]. intros [|j] e H; discriminate.
  - destruct (nth_error states i) as [s|] eqn:Es; [|discriminate].
    destruct (edge_act B (e_model (e_dat e)) s x) as [x1 [s'|er]] eqn:Ea; [|discriminate].
    assert (x1 = x) by (pose proof (proj2 St e (In1 e (or_introl eq_refl)) s) as K; rewrite Ea in K; exact K). subst x1.
    simpl in Nd. apply NoDup_cons_iff in Nd as [Nn Nd].
    destruct (IH _ _ _ _ _ _ St (fun a Ha => In1 a (or_intror Ha)) Nd H) as [-> K]. split; [reflexivity|].
    intros [|j] e' Hj.
    + injection Hj as <-. exists s, s'. rewrite Nat.add_0_r. split; [exact Es|]. rewrite Ea. split; [reflexivity|].
      rewrite (send_keys _ _ _ _ _ _ _ _ H); [apply saved_same|]. intros e' He' Q. apply pedge_inj in Q. apply Nn. rewrite Q. apply in_map; exact He'.
    + simpl in Hj. destruct (K j e' Hj) as (s1 & v & K1 & K2 & K3). exists s1, v. rewrite Nat.add_succ_r. simpl in K1. tauto.
Qed.

Lemma send_succeeds : forall es i states x sv, steady B g x -> incl es (g_edges g) ->
  (forall j e, nth_error es j = Some e -> exists s v, nth_error states (i + j) = Some s /\ snd (edge_act B (e_model (e_dat e)) s x) = Ok v) ->
  exists sv', send B es i states x sv = (x, sv', Ok tt).
Proof.
  induction es as [|e es IH]; intros i states x sv St In1 H.
  - exists sv; reflexivity.
  - simpl. destruct (H 0 e eq_refl) as (s & v & H1 & H2). rewrite Nat.add_0_r in H1. rewrite H1.
    destruct (edge_act B (e_model (e_dat e)) s x) as [x1 r1] eqn:Ea. simpl in H2. subst r1.
    assert (x1 = x) by (pose proof (proj2 St e (In1 e (or_introl eq_refl)) s) as K; rewrite Ea in K; exact K). subst x1.
    apply IH; [exact St|exact (fun a Ha => In1 a (or_intror Ha))|]. intros j e' Hj. destruct (H (Datatypes.S j) e' Hj) as (s1 & v1 & K1 & K2). exists s1, v1. rewrite Nat.add_succ_r in K1. tauto.
Qed.

(** *** one node *)
Definition obeys (x : X) (val : edge -> S) (out : node -> S) (n : node) : Prop := forall c, model_at g n c -> exists states,
    snd (node_act B c (received g src val n) (arrivals g n) (departures g n) x) = Ok states /\
    (departures g n = 0 -> nth_error states 0 = Some (out n)) /\
    (forall i e, nth_error (leaving g n) i = Some e -> exists s,
       nth_error states i = Some s /\ snd (edge_act B (e_model (e_dat e)) s x) = Ok (val e)).

Lemma get_out_degree_dep : forall n, is_node g n -> get_out_degree g n = departures g n.
Proof. intros n Hn. unfold get_out_degree. rewrite out_edges_leaving by assumption. reflexivity. Qed.

Lemma visit_keys : forall n x sv x' sv' r, is_node g n -> visit B g src n x sv = (x', sv', r) ->
  forall p, (p <> PNode n \/ departures g n <> 0) -> (forall e, In e (g_edges g) -> e_src e = n -> p <> PEdge (e_id e)) -> saved sv' p = saved sv p.
Proof.
  intros n x sv x' sv' r Hn H p Hp Hq. unfold visit in H. rewrite (get_out_degree_dep n Hn), (out_edges_leaving g n W Hn) in H.
  assert (Q : forall e, In e (leaving g n) -> p <> PEdge (e_id e)) by (intros e He; apply In_leaving in He as [H1 H2]; apply Hq; assumption).
  destruct (node_inputs g src sv n) as [ins|]; [|injection H as <- <- <-; reflexivity].
  destruct (node_data g n) as [nd|]; [|injection H as <- <- <-; reflexivity].
  destruct (node_act B (n_model nd) ins (in_degree g n) (out_degree g n) x) as [x1 [states|]]; [|injection H as <- <- <-; reflexivity].
  destruct (departures g n =? 0) eqn:Ed.
  - destruct states as [|s0 rest]; [injection H as <- <- <-; reflexivity|].
    rewrite (send_keys _ _ _ _ _ _ _ _ H p Q). destruct Hp as [Hp|Hp]; [|apply Nat.eqb_eq in Ed; contradiction]. apply saved_other; exact Hp.
  - exact (send_keys _ _ _ _ _ _ _ _ H p Q).
Qed.

Lemma model_at_data : forall n c, model_at g n c -> exists nd, node_data g n = Some nd /\ n_model nd = c.
Proof. intros n c (d & H & E). exists d. split; [apply (node_data_iff g n d W); exact H|exact E]. Qed.

Lemma data_model_at : forall n nd, node_data g n = Some nd -> model_at g n (n_model nd).
Proof. intros n nd E. exists nd. split; [apply (node_data_iff g n nd W); exact E|reflexivity]. Qed.
Lemma leaving_incl : forall n, incl (leaving g n) (g_edges g).
Proof. intros n e He. apply In_leaving in He. tauto. Qed.

Lemma visit_ok : forall n x sv x' sv', steady B g x -> is_node g n ->
  (forall e, In e (g_edges g) -> e_dst e = n -> saved sv (PEdge (e_id e)) <> None) ->
  visit B g src n x sv = (x', sv', Ok tt) ->
  x' = x /\ forall c, model_at g n c -> exists states,
    snd (node_act B c (received g src (get sv) n) (arrivals g n) (departures g n) x) = Ok states /\
    (departures g n = 0 -> exists s, nth_error states 0 = Some s /\ saved sv' (PNode n) = Some s) /\
    (forall i e, nth_error (leaving g n) i = Some e -> exists s v,
       nth_error states i = Some s /\ snd (edge_act B (e_model (e_dat e)) s x) = Ok v /\ saved sv' (PEdge (e_id e)) = Some v).
Proof.
  intros n x sv x' sv' St Hn Hi H. unfold visit in H. rewrite (get_out_degree_dep n Hn), (out_edges_leaving g n W Hn), (inputs_spec sv n Hi) in H.
  destruct (node_data g n) as [nd|] eqn:End; [|discriminate].
  change (in_degree g n) with (arrivals g n) in H. change (out_degree g n) with (departures g n) in H.
  destruct (node_act B (n_model nd) (received g src (get sv) n) (arrivals g n) (departures g n) x) as [x1 [states|]] eqn:Ea; [|discriminate].
  assert (x1 = x) by (pose proof (proj1 St n (n_model nd) (data_model_at n nd End) (received g src (get sv) n) (arrivals g n) (departures g n)) as K; rewrite Ea in K; exact K). subst x1.
  assert (R : exists sv1, send B (leaving g n) 0 states x sv1 = (x', sv', Ok tt) /\ (departures g n = 0 -> exists s, nth_error states 0 = Some s /\ saved sv1 (PNode n) = Some s)).
  { destruct (departures g n =? 0) eqn:Ed.
    - destruct states as [|s0 rest]; [discriminate|]. exists (save (PNode n) s0 sv). split; [exact H|]. intros _. exists s0. split; [reflexivity|apply saved_same].
    - exists sv. split; [exact H|]. intro Z. rewrite Z in Ed. discriminate. }
  destruct R as (sv1 & R1 & R2). destruct (send_ok _ _ _ _ _ _ _ St (leaving_incl n) (leaving_ids g n W) R1) as [Ex K]. split; [exact Ex|].
  intros c Hc. destruct (model_at_data n c Hc) as (nd' & D1 & D2). assert (nd' = nd) by congruence. subst nd' c. exists states. rewrite Ea.
  split; [reflexivity|]. split.
  - intro Z. destruct (R2 Z) as (s & S1 & S2). exists s. split; [exact S1|]. rewrite (send_keys _ _ _ _ _ _ _ _ R1); [exact S2|]. intros e _ Q; discriminate.
  - intros i e Hie. destruct (K i e Hie) as (s & v & K1 & K2 & K3). exists s, v. tauto.
Qed.

Lemma received_ext : forall v1 v2 n, (forall e, In e (g_edges g) -> e_dst e = n -> v1 e = v2 e) -> received g src v1 n = received g src v2 n.
Proof.
  intros v1 v2 n H. unfold received. destruct (arriving g n) as [|e0 l0] eqn:E; [reflexivity|]. rewrite <- E. apply map_ext_in. intros e He.
  apply (In_arriving g n e W) in He as [H1 H2]. apply H; assumption.
Qed.

Lemma visit_succeeds : forall n x sv val out, steady B g x -> is_node g n ->
  (forall e, In e (g_edges g) -> e_dst e = n -> saved sv (PEdge (e_id e)) = Some (val e)) ->
  obeys x val out n -> exists sv', visit B g src n x sv = (x, sv', Ok tt) /\
    (departures g n = 0 -> saved sv' (PNode n) = Some (out n)) /\ (forall e, In e (g_edges g) -> e_src e = n -> saved sv' (PEdge (e_id e)) = Some (val e)).
Proof.
  intros n x sv val out St Hn Hi Ob.
  assert (Hi' : forall e, In e (g_edges g) -> e_dst e = n -> saved sv (PEdge (e_id e)) <> None) by (intros e H1 H2; rewrite (Hi e H1 H2); discriminate).
  assert (Er : received g src (get sv) n = received g src val n).
  { apply received_ext. intros e H1 H2. unfold get. rewrite (Hi e H1 H2). reflexivity. }
  assert (Ok1 : exists sv', visit B g src n x sv = (x, sv', Ok tt)).
  { unfold visit. rewrite (get_out_degree_dep n Hn), (out_edges_leaving g n W Hn), (inputs_spec sv n Hi'), Er.
    destruct (node_data_ex g n Hn) as (nd & End). rewrite End.
    assert (M : model_at g n (n_model nd)) by (exists nd; split; [apply (node_data_iff g n nd W); exact End|reflexivity]).
    destruct (Ob _ M) as (states & O1 & O2 & O3).
    change (in_degree g n) with (arrivals g n). change (out_degree g n) with (departures g n).
    destruct (node_act B (n_model nd) (received g src val n) (arrivals g n) (departures g n) x) as [x1 r1] eqn:Ea. simpl in O1. subst r1.
    assert (x1 = x) by (pose proof (proj1 St n (n_model nd) (data_model_at n nd End) (received g src val n) (arrivals g n) (departures g n)) as K; rewrite Ea in K; exact K). subst x1.
    assert (Sd : forall sv1, exists sv', send B (leaving g n) 0 states x sv1 = (x, sv', Ok tt)).
    { intro sv1. apply send_succeeds; [exact St|exact (leaving_incl n)|]. intros j e Hj. destruct (O3 j e Hj) as (s & K1 & K2). exists s, (val e). tauto. }
    destruct (departures g n =? 0) eqn:Ed.
    - apply Nat.eqb_eq in Ed. specialize (O2 Ed). destruct states as [|s0 rest]; [discriminate|]. apply Sd.
    - apply Sd. }
  destruct Ok1 as (sv' & H). exists sv'. split; [exact H|].
  destruct (visit_ok n x sv x sv' St Hn Hi' H) as [_ K].
  destruct (node_data_ex g n Hn) as (nd & End).
  assert (M : model_at g n (n_model nd)) by (exists nd; split; [apply (node_data_iff g n nd W); exact End|reflexivity]).
  destruct (K _ M) as (states & K1 & K2 & K3). destruct (Ob _ M) as (states' & O1 & O2 & O3).
  rewrite Er in K1. assert (states' = states) by congruence. subst states'. split.
  - intro Z. destruct (K2 Z) as (s & S1 & S2). rewrite S2. rewrite <- S1. apply O2; exact Z.
  - intros e H1 H2. assert (He : In e (leaving g n)) by (apply In_leaving; tauto). apply In_nth_error in He as (i & He).
    destruct (K3 i e He) as (s & v & A1 & A2 & A3). destruct (O3 i e He) as (s' & B1 & B2). assert (s' = s) by congruence. subst s'. congruence.
Qed.

(** *** all nodes *)
Definition later (r : list node) : Prop := NoDup r /\ (forall n, In n r -> is_node g n).

Lemma visit_all_keys : forall r x sv x' sv' q, (forall n, In n r -> is_node g n) -> visit_all B g src r x sv = (x', sv', q) ->
  forall p, (forall n, In n r -> p <> PNode n \/ departures g n <> 0) -> (forall e, In e (g_edges g) -> In (e_src e) r -> p <> PEdge (e_id e)) -> saved sv' p = saved sv p.
Proof.
  induction r as [|n r IH]; intros x sv x' sv' q Hn H p Hp Hq; simpl in H.
  - injection H as <- <- <-; reflexivity.
  - destruct (visit B g src n x sv) as [[x1 sv1] [u|er]] eqn:Ev.
    + rewrite (IH _ _ _ _ _ (fun m Hm => Hn m (or_intror Hm)) H p (fun m Hm => Hp m (or_intror Hm)) (fun e H1 H2 => Hq e H1 (or_intror H2))).
      apply (visit_keys n x sv x1 sv1 (Ok u)); [apply Hn; left; reflexivity|exact Ev|apply Hp; left; reflexivity|]. intros e H1 H2. apply Hq; [exact H1|left; congruence].
    + injection H as <- <- <-. apply (visit_keys n x sv x1 sv1 (Err er)); [apply Hn; left; reflexivity|exact Ev|apply Hp; left; reflexivity|]. intros e H1 H2. apply Hq; [exact H1|left; congruence].
Qed.

(* the rest of an order: all predecessors of its first node come before it *)
Definition closed (D r : list node) : Prop := forall l1 n l2 e, r = l1 ++ n :: l2 -> In e (g_edges g) -> e_dst e = n -> In (e_src e) (D ++ l1).

Lemma visit_all_ok : forall r D x sv x' sv', steady B g x -> NoDup (D ++ r) -> (forall n, In n r -> is_node g n) -> closed D r ->
  (forall e, In e (g_edges g) -> In (e_src e) D -> saved sv (PEdge (e_id e)) <> None) ->
  visit_all B g src r x sv = (x', sv', Ok tt) ->
  x' = x /\ (forall n, In n r -> obeys x (get sv') (fun m => match saved sv' (PNode m) with Some s => s | None => src end) n) /\
  (forall n, In n r -> departures g n = 0 -> saved sv' (PNode n) <> None) /\
  (forall e, In e (g_edges g) -> In (e_src e) (D ++ r) -> saved sv' (PEdge (e_id e)) <> None).
Proof.
  induction r as [|n r IH]; intros D x sv x' sv' St Nd Hn Cl Hs H; simpl in H.
  - injection H as <- <-. split; [reflexivity|]. split; [intros n []|]. split; [intros n []|]. rewrite app_nil_r. exact Hs.
  - destruct (visit B g src n x sv) as [[x1 sv1] [[]|er]] eqn:Ev; [|discriminate].
    assert (In1 : is_node g n) by (apply Hn; left; reflexivity).
    assert (Hp : forall e, In e (g_edges g) -> e_dst e = n -> In (e_src e) D).
    { intros e H1 H2. specialize (Cl [] n r e eq_refl H1 H2). rewrite app_nil_r in Cl. exact Cl. }
    destruct (visit_ok n x sv x1 sv1 St In1) as [-> K]; [intros e H1 H2; apply Hs; [exact H1|apply Hp; assumption]|exact Ev|].
    assert (Nn : ~ In n D /\ ~ In n r).
    { split; [|apply NoDup_remove_2 in Nd; intro Q; apply Nd; apply in_or_app; right; exact Q].
      apply NoDup_remove_2 in Nd. intro Q; apply Nd; apply in_or_app; left; exact Q. }
    assert (Hs1 : forall e, In e (g_edges g) -> In (e_src e) (D ++ [n]) -> saved sv1 (PEdge (e_id e)) <> None).
    { intros e H1 H2. apply in_app_or in H2 as [H2|[H2|[]]].
      - rewrite (visit_keys n x sv x sv1 _ In1 Ev); [apply Hs; assumption|left; discriminate|]. intros e' H3 H4 Q. apply pedge_inj in Q.
        assert (e' = e) by (apply (NoDup_map_inj_In _ _ _ _ (wf_keys g W) H3 H1); unfold e_id in Q; congruence). subst e'. apply (proj1 Nn). rewrite <- H4. exact H2.
      - destruct (node_data_ex g n In1) as (nd & End).
        assert (M : model_at g n (n_model nd)) by (exists nd; split; [apply (node_data_iff g n nd W); exact End|reflexivity]).
        destruct (K _ M) as (states & _ & _ & K3). assert (He : In e (leaving g n)) by (apply In_leaving; split; [exact H1|congruence]).
        apply In_nth_error in He as (i & He). destruct (K3 i e He) as (s & v & _ & _ & A3). rewrite A3. discriminate. }
    assert (Nd1 : NoDup ((D ++ [n]) ++ r)) by (rewrite <- app_assoc; exact Nd).
    destruct (IH (D ++ [n]) x sv1 x' sv' St Nd1) as (E1 & E2 & E3 & E4).
    + intros m Hm. apply Hn. right; exact Hm.
    + intros l1 m l2 e E H1 H2. rewrite <- app_assoc. apply (Cl (n :: l1) m l2 e); [simpl; congruence|exact H1|exact H2].
    + exact Hs1.
    + exact H.
    + split; [exact E1|].
      assert (Kp : forall e, In e (g_edges g) -> In (e_src e) (D ++ [n]) -> saved sv' (PEdge (e_id e)) = saved sv1 (PEdge (e_id e))).
      { intros e H1 H2. apply (visit_all_keys r x sv1 x' sv' (Ok tt)); [intros m Hm; apply Hn; right; exact Hm|exact H|intros m Hm; left; discriminate|].
        intros e' H3 H4 Q. apply pedge_inj in Q. assert (e' = e) by (apply (NoDup_map_inj_In _ _ _ _ (wf_keys g W) H3 H1); unfold e_id in Q; congruence). subst e'.
        apply in_app_or in H2 as [H2|[H2|[]]]; [|rewrite <- H2 in H4; tauto].
        apply in_split in H4 as (l1 & l2 & ->). rewrite <- app_assoc in Nd1. apply NoDup_app_disjoint' with (x := e_src e) in Nd; [exact Nd|exact H2|]. right. apply in_or_app; right; left; reflexivity. }
      assert (Kn : departures g n = 0 -> saved sv' (PNode n) = saved sv1 (PNode n)).
      { intro Z. apply (visit_all_keys r x sv1 x' sv' (Ok tt)); [intros m Hm; apply Hn; right; exact Hm|exact H| |intros; discriminate].
        intros m Hm. left. intro Q. injection Q as ->. tauto. }
      split; [|split].
      * intros m [<-|Hm]; [|apply E2; exact Hm].
        intros c Hc. destruct (K c Hc) as (states & K1 & K2 & K3). exists states. split; [|split].
        -- rewrite (received_ext (get sv') (get sv)); [exact K1|]. intros e H1 H2. unfold get. rewrite (Kp e H1); [|apply in_or_app; left; apply Hp; assumption].
           rewrite (visit_keys n x sv x sv1 _ In1 Ev); [reflexivity|left; discriminate|]. intros e' H3 H4 Q. apply pedge_inj in Q.
           assert (e' = e) by (apply (NoDup_map_inj_In _ _ _ _ (wf_keys g W) H3 H1); unfold e_id in Q; congruence). subst e'. apply (proj1 Nn). rewrite <- H4. apply Hp; assumption.
        -- intro Z. destruct (K2 Z) as (s & S1 & S2). rewrite (Kn Z), S2. exact S1.
        -- intros i e He. destruct (K3 i e He) as (s & v & A1 & A2 & A3). exists s. split; [exact A1|]. unfold get.
           assert (He' : In e (leaving g n)) by (eapply nth_error_In; exact He). apply In_leaving in He' as [L1 L2].
           rewrite (Kp e L1); [|apply in_or_app; right; left; congruence]. rewrite A3. exact A2.
      * intros m [<-|Hm] Z; [|apply E3; assumption]. rewrite (Kn Z). destruct (node_data_ex g n In1) as (nd & End).
        assert (M : model_at g n (n_model nd)) by (exists nd; split; [apply (node_data_iff g n nd W); exact End|reflexivity]).
        destruct (K _ M) as (states & _ & K2 & _). destruct (K2 Z) as (s & _ & S2). rewrite S2. discriminate.
      * intros e H1 H2. apply E4; [exact H1|]. rewrite <- app_assoc. exact H2.
Qed.

Lemma visit_all_succeeds : forall r D x sv val out, steady B g x -> NoDup (D ++ r) -> (forall n, In n r -> is_node g n) -> closed D r ->
  (forall e, In e (g_edges g) -> In (e_src e) D -> saved sv (PEdge (e_id e)) = Some (val e)) ->
  (forall n, In n r -> obeys x val out n) ->
  exists sv', visit_all B g src r x sv = (x, sv', Ok tt) /\
    (forall n, In n r -> departures g n = 0 -> saved sv' (PNode n) = Some (out n)) /\
    (forall e, In e (g_edges g) -> In (e_src e) (D ++ r) -> saved sv' (PEdge (e_id e)) = Some (val e)).
Proof.
  induction r as [|n r IH]; intros D x sv val out St Nd Hn Cl Hs Ob.
  - exists sv. split; [reflexivity|]. split; [intros n []|]. rewrite app_nil_r. exact Hs.
  - assert (In1 : is_node g n) by (apply Hn; left; reflexivity).
    assert (Hp : forall e, In e (g_edges g) -> e_dst e = n -> In (e_src e) D).
    { intros e H1 H2. specialize (Cl [] n r e eq_refl H1 H2). rewrite app_nil_r in Cl. exact Cl. }
    destruct (visit_succeeds n x sv val out St In1) as (sv1 & V1 & V2 & V3); [intros e H1 H2; apply Hs; [exact H1|apply Hp; assumption]|apply Ob; left; reflexivity|].
    assert (Nn : ~ In n D /\ ~ In n r).
    { split; [|apply NoDup_remove_2 in Nd; intro Q; apply Nd; apply in_or_app; right; exact Q].
      apply NoDup_remove_2 in Nd. intro Q; apply Nd; apply in_or_app; left; exact Q. }
    assert (Hs1 : forall e, In e (g_edges g) -> In (e_src e) (D ++ [n]) -> saved sv1 (PEdge (e_id e)) = Some (val e)).
    { intros e H1 H2. apply in_app_or in H2 as [H2|[H2|[]]]; [|apply V3; [exact H1|congruence]].
      rewrite (visit_keys n x sv x sv1 _ In1 V1); [apply Hs; assumption|left; discriminate|]. intros e' H3 H4 Q. apply pedge_inj in Q.
      assert (e' = e) by (apply (NoDup_map_inj_In _ _ _ _ (wf_keys g W) H3 H1); unfold e_id in Q; congruence). subst e'. apply (proj1 Nn). rewrite <- H4. exact H2. }
    destruct (IH (D ++ [n]) x sv1 val out St) as (sv' & R1 & R2 & R3).
    + rewrite <- app_assoc; exact Nd.
    + intros m Hm; apply Hn; right; exact Hm.
    + intros l1 m l2 e E H1 H2. rewrite <- app_assoc. apply (Cl (n :: l1) m l2 e); [simpl; congruence|exact H1|exact H2].
    + exact Hs1.
    + intros m Hm; apply Ob; right; exact Hm.
    + exists sv'. split; [simpl; rewrite V1; exact R1|]. split.
      * intros m [<-|Hm] Z; [|apply R2; assumption]. rewrite (visit_all_keys r x sv1 x sv' (Ok tt)); [apply V2; exact Z|intros m Hm; apply Hn; right; exact Hm|exact R1| |intros; discriminate].
        intros m Hm. left. intro Q. injection Q as ->. tauto.
      * intros e H1 H2. apply R3; [exact H1|]. rewrite <- app_assoc. exact H2.
Qed.

Lemma valid_closed : forall o, valid_order g o -> NoDup o /\ (forall n, In n o <-> is_node g n) /\ closed [] o.
Proof.
  intros o [P V]. assert (Nd : NoDup o) by (apply (Permutation_NoDup (Permutation_sym P)); exact (wf_nodes g W)).
  assert (Mem : forall n, In n o <-> is_node g n).
  { intro n. rewrite <- node_ids_is_node. split; intro H; [exact (Permutation_in _ P H)|exact (Permutation_in _ (Permutation_sym P) H)]. }
  split; [exact Nd|]. split; [exact Mem|]. intros l1 n l2 e E H1 H2. simpl.
  assert (Hs : In (e_src e) o) by (apply Mem; apply (wf_ends g W e H1)). rewrite E in Hs. apply in_app_or in Hs as [Hs|[Hs|Hs]]; [exact Hs| |]; exfalso.
  - assert (Q : In n l2) by (apply (V l1 n l2 n E); exists e; split; [exact H1|split; [congruence|exact H2]]). rewrite E in Nd. apply NoDup_remove_2 in Nd. apply Nd. apply in_or_app; right; exact Q.
  - apply in_split in Hs as (a & b & Es). subst l2. rewrite app_comm_cons, app_assoc in E.
    assert (Q : In n b) by (apply (V _ _ _ n E); exists e; tauto). rewrite E in Nd. rewrite <- app_assoc in Nd. simpl in Nd. apply NoDup_remove_2 in Nd. apply Nd.
    apply in_or_app; right. apply in_or_app; right. right; exact Q.
Qed.

Lemma no_output_dep : forall n, is_node g n -> (no_output g n <-> departures g n = 0).
Proof.
  intros n Hn. unfold no_output. change (departures g n) with (out_degree g n). rewrite out_degree_zero. split; [intros [_ H]; exact H|intro H; split; [exact Hn|exact H]].
Qed.

Lemma obeys_solves : forall x val out, (forall n, is_node g n -> obeys x val out n) <-> solves B x g src val out.
Proof.
  intros x val out. split; intro H.
  - intros n c M. apply (H n); [destruct M as (d & M & _); exists d; exact M|exact M].
  - intros n _ c M. exact (H n c M).
Qed.

Lemma along_absent : forall o x x' sv, valid_order g o -> visit_all B g src o x [] = (x', sv, Ok tt) ->
  (forall n, ~ no_output g n -> saved sv (PNode n) = None) /\
  (forall i, (forall e, In e (g_edges g) -> (e_src e, e_dst e, e_key e) <> i) -> saved sv (PEdge i) = None).
Proof.
  intros o x x' sv V H. destruct (valid_closed o V) as (Nd & Mem & _). split.
  - intros n Hn. rewrite (visit_all_keys o x [] x' sv (Ok tt)); [apply saved_nil|intros m Hm; apply Mem; exact Hm|exact H| |intros; discriminate].
    intros m Hm. destruct (Nat.eq_dec m n) as [->|Ne]; [right|left; congruence]. intro Z. apply Hn. apply no_output_dep; [apply Mem; exact Hm|exact Z].
  - intros i Hi. rewrite (visit_all_keys o x [] x' sv (Ok tt)); [apply saved_nil|intros m Hm; apply Mem; exact Hm|exact H|intros m _; left; discriminate|].
    intros e H1 _ Q. apply pedge_inj in Q. apply (Hi e H1). symmetry; exact Q.
Qed.

Lemma along_sound : forall o x old x' sv, steady B g x -> valid_order g o -> propagate_along B g o src x old = (x', sv, Ok tt) ->
  x' = x /\ exists val out, solves B x g src val out /\ records g sv val out.
Proof.
  intros o x old x' sv St V H. unfold propagate_along in H. destruct (valid_closed o V) as (Nd & Mem & Cl).
  destruct (visit_all_ok o [] x [] x' sv St Nd) as (E1 & E2 & E3 & E4); [intros n Hn; apply Mem; exact Hn|exact Cl|intros e _ []|exact H|].
  split; [exact E1|]. exists (get sv), (fun m => match saved sv (PNode m) with Some s => s | None => src end). split.
  - apply obeys_solves. intros n Hn. apply E2. apply Mem; exact Hn.
  - destruct (along_absent o x x' sv V H) as [A1 A2]. split; [|split; [|split; [exact A1|exact A2]]].
    + intros e He. unfold get. change (e_src e, e_dst e, e_key e) with (e_id e).
      destruct (saved sv (PEdge (e_id e))) as [s|] eqn:Es; [reflexivity|]. exfalso. apply (E4 e He); [apply Mem; apply (wf_ends g W e He)|exact Es].
    + intros n Hn. destruct (saved sv (PNode n)) as [s|] eqn:Es; [reflexivity|]. exfalso.
      assert (Hi : is_node g n) by apply Hn. apply (E3 n); [apply Mem; exact Hi|apply no_output_dep; assumption|exact Es].
Qed.

Lemma along_complete : forall o x old val out, steady B g x -> valid_order g o -> solves B x g src val out ->
  exists sv, propagate_along B g o src x old = (x, sv, Ok tt) /\ records g sv val out.
Proof.
  intros o x old val out St V Sol. destruct (valid_closed o V) as (Nd & Mem & Cl).
  destruct (visit_all_succeeds o [] x [] val out St Nd) as (sv & R1 & R2 & R3); [intros n Hn; apply Mem; exact Hn|exact Cl|intros e _ []| |].
  - intros n Hn. apply (proj2 (obeys_solves x val out) Sol). apply Mem; exact Hn.
  - exists sv. split; [exact R1|]. destruct (along_absent o x x sv V R1) as [A1 A2]. split; [|split; [|split; [exact A1|exact A2]]].
    + intros e He. apply (R3 e He). apply Mem; apply (wf_ends g W e He).
    + intros n Hn. assert (Hi : is_node g n) by apply Hn. apply R2; [apply Mem; exact Hi|apply no_output_dep; assumption].
Qed.

Lemma records_saved : forall (sv sv' : saves S) val out, records g sv val out -> records g sv' val out -> forall p, saved sv p = saved sv' p.
Proof.
  intros sv sv' val out (R1 & R2 & R3 & R4) (Q1 & Q2 & Q3 & Q4) [n|i].
  - destruct (in_dec Nat.eq_dec n (node_ids g)) as [Hn|Hn].
    + apply node_ids_is_node in Hn. destruct (Nat.eq_dec (departures g n) 0) as [Z|Z].
      * apply (no_output_dep n Hn) in Z. rewrite R2, Q2 by exact Z. reflexivity.
      * assert (Z' : ~ no_output g n) by (rewrite (no_output_dep n Hn); exact Z). rewrite R3, Q3 by exact Z'. reflexivity.
    + assert (Z' : ~ no_output g n) by (intros [Q _]; apply Hn; apply node_ids_is_node; exact Q). rewrite R3, Q3 by exact Z'. reflexivity.
  - destruct (find (fun e => eid_eqb (e_id e) i) (g_edges g)) as [e|] eqn:F.
    + apply find_some in F as [F1 F2]. apply eid_eqb_eq in F2. subst i. unfold e_id. rewrite R1, Q1 by exact F1. reflexivity.
    + assert (Z : forall e, In e (g_edges g) -> (e_src e, e_dst e, e_key e) <> i).
      { intros e He E. pose proof (find_none _ _ F e He) as K. cbn beta in K. apply eid_eqb_neq in K. apply K. exact E. }
      rewrite R4, Q4 by exact Z. reflexivity.
Qed.

Lemma same_for_all_orders : forall o o' x old old' x' sv, steady B g x -> valid_order g o -> valid_order g o' ->
  propagate_along B g o src x old = (x', sv, Ok tt) ->
  exists sv', propagate_along B g o' src x old' = (x', sv', Ok tt) /\ forall p, saved sv' p = saved sv p.
Proof.
  intros o o' x old old' x' sv St V V' H. destruct (along_sound o x old x' sv St V H) as (-> & val & out & Sol & R).
  destruct (along_complete o' x old' val out St V' Sol) as (sv' & H' & R'). exists sv'. split; [exact H'|]. exact (records_saved sv' sv val out R' R).
Qed.

Lemma solution_unique : forall x val out val' out', steady B g x -> acyclic g -> solves B x g src val out -> solves B x g src val' out' ->
  (forall e, In e (g_edges g) -> val e = val' e) /\ (forall n, no_output g n -> out n = out' n).
Proof.
  intros x val out val' out' St Ac S1 S2. destruct (toposort_some g W Ac) as (o & _ & V).
  destruct (along_complete o x [] val out St V S1) as (sv & H & R). destruct (along_complete o x [] val' out' St V S2) as (sv' & H' & R').
  assert (sv' = sv) by congruence. subst sv'. destruct R as (R1 & R2 & _), R' as (R1' & R2' & _). split.
  - intros e He. specialize (R1 e He). specialize (R1' e He). congruence.
  - intros n Hn. specialize (R2 n Hn). specialize (R2' n Hn). congruence.
Qed.

(** *** propagate itself *)
Lemma propagate_solution : forall x old, steady B g x -> acyclic g ->
  (forall x' sv, propagate B g src x old = (x', sv, Ok tt) -> x' = x /\ exists val out, solves B x g src val out /\ records g sv val out) /\
  (forall val out, solves B x g src val out -> exists sv, propagate B g src x old = (x, sv, Ok tt) /\ records g sv val out).
Proof.
  intros x old St Ac. unfold propagate. destruct (toposort_some g W Ac) as (o & -> & V). split.
  - intros x' sv H. exact (along_sound o x old x' sv St V H).
  - intros val out Sol. exact (along_complete o x old val out St V Sol).
Qed.

(** *** what can be measured: any components, steady or not *)
Lemma save_some : forall p q (s : S) sv, saved sv p <> None \/ p = q -> saved (save q s sv) p <> None.
Proof.
  intros p q s sv H. destruct (place_eqb p q) eqn:E.
  - apply place_eqb_eq in E. subst q. rewrite saved_same. discriminate.
  - assert (p <> q) by (intros ->; rewrite (proj2 (place_eqb_eq q q) eq_refl) in E; discriminate). rewrite saved_other by assumption. tauto.
Qed.

Lemma send_mono : forall es i states x sv x' sv' r, send B es i states x sv = (x', sv', r) ->
  forall p, saved sv p <> None -> saved sv' p <> None.
Proof.
  induction es as [|e es IH]; intros i states x sv x' sv' r H p Hp; simpl in H; [injection H as <- <- <-; exact Hp|].
  destruct (nth_error states i) as [s|]; [|injection H as <- <- <-; exact Hp].
  destruct (edge_act B (e_model (e_dat e)) s x) as [x1 [s'|er]]; [|injection H as <- <- <-; exact Hp].
  apply (IH _ _ _ _ _ _ _ H). apply save_some. left; exact Hp.
Qed.

Lemma send_all_saved : forall es i states x sv x' sv', send B es i states x sv = (x', sv', Ok tt) ->
  forall e, In e es -> saved sv' (PEdge (e_id e)) <> None.
Proof.
  induction es as [|e es IH]; intros i states x sv x' sv' H e' He; simpl in H; [contradiction|].
  destruct (nth_error states i) as [s|]; [|discriminate]. destruct (edge_act B (e_model (e_dat e)) s x) as [x1 [s'|er]]; [|discriminate].
  destruct He as [<-|He]; [|exact (IH _ _ _ _ _ _ H e' He)].
  apply (send_mono _ _ _ _ _ _ _ _ H). apply save_some. right; reflexivity.
Qed.

Lemma visit_mono : forall n x sv x' sv' r, visit B g src n x sv = (x', sv', r) -> forall p, saved sv p <> None -> saved sv' p <> None.
Proof.
  intros n x sv x' sv' r H p Hp. unfold visit in H.
  destruct (node_inputs g src sv n) as [ins|]; [|injection H as <- <- <-; exact Hp].
  destruct (node_data g n) as [nd|]; [|injection H as <- <- <-; exact Hp].
  destruct (node_act B (n_model nd) ins (in_degree g n) (out_degree g n) x) as [x1 [states|]]; [|injection H as <- <- <-; exact Hp].
  destruct (get_out_degree g n =? 0).
  - destruct states as [|s0 rest]; [injection H as <- <- <-; exact Hp|]. apply (send_mono _ _ _ _ _ _ _ _ H). apply save_some. left; exact Hp.
  - exact (send_mono _ _ _ _ _ _ _ _ H p Hp).
Qed.

Lemma visit_saved : forall n x sv x' sv', is_node g n -> visit B g src n x sv = (x', sv', Ok tt) ->
  (departures g n = 0 -> saved sv' (PNode n) <> None) /\ (forall e, In e (g_edges g) -> e_src e = n -> saved sv' (PEdge (e_id e)) <> None).
Proof.
  intros n x sv x' sv' Hn H. unfold visit in H. rewrite (get_out_degree_dep n Hn), (out_edges_leaving g n W Hn) in H.
  destruct (node_inputs g src sv n) as [ins|]; [|discriminate]. destruct (node_data g n) as [nd|]; [|discriminate].
  destruct (node_act B (n_model nd) ins (in_degree g n) (out_degree g n) x) as [x1 [states|]]; [|discriminate].
  destruct (departures g n =? 0) eqn:Ed.
  - destruct states as [|s0 rest]; [discriminate|]. split.
    + intros _. apply (send_mono _ _ _ _ _ _ _ _ H). apply save_some. right; reflexivity.
    + intros e H1 H2. apply (send_all_saved _ _ _ _ _ _ _ H). apply In_leaving. tauto.
  - split; [intro Z; rewrite Z in Ed; discriminate|]. intros e H1 H2. apply (send_all_saved _ _ _ _ _ _ _ H). apply In_leaving. tauto.
Qed.

Lemma visit_all_saved : forall r x sv x' sv', (forall n, In n r -> is_node g n) -> visit_all B g src r x sv = (x', sv', Ok tt) ->
  (forall p, saved sv p <> None -> saved sv' p <> None) /\
  (forall n, In n r -> departures g n = 0 -> saved sv' (PNode n) <> None) /\ (forall e, In e (g_edges g) -> In (e_src e) r -> saved sv' (PEdge (e_id e)) <> None).
Proof.
  induction r as [|n r IH]; intros x sv x' sv' Hn H; simpl in H.
  - injection H as <- <-. split; [tauto|]. split; [intros n []|intros e _ []].
  - destruct (visit B g src n x sv) as [[x1 sv1] [[]|er]] eqn:Ev; [|discriminate].
    destruct (IH _ _ _ _ (fun m Hm => Hn m (or_intror Hm)) H) as (I1 & I2 & I3).
    destruct (visit_saved n x sv x1 sv1 (Hn n (or_introl eq_refl)) Ev) as [V1 V2]. split; [|split].
    + intros p Hp. apply I1. exact (visit_mono n x sv x1 sv1 _ Ev p Hp).
    + intros m [<-|Hm] Z; [apply I1; apply V1; exact Z|apply I2; assumption].
    + intros e H1 [H2|H2]; [apply I1; apply V2; [exact H1|congruence]|apply I3; assumption].
Qed.

Lemma measurable : forall x old x' sv, propagate B g src x old = (x', sv, Ok tt) ->
  (forall n, (exists s, measure sv (PNode n) = Ok s) <-> no_output g n) /\
  (forall i, (exists s, measure sv (PEdge i) = Ok s) <-> exists e, In e (g_edges g) /\ (e_src e, e_dst e, e_key e) = i) /\
  (forall p e, measure sv p = Err e -> e = KeyError).
Proof.
  intros x old x' sv H. unfold propagate in H. pose proof (topological_sort_spec g W) as T. destruct (topological_sort g) as [o|]; [|discriminate].
  unfold propagate_along in H. destruct (valid_closed o T) as (Nd & Mem & _). destruct (along_absent o x x' sv T H) as [A1 A2].
  destruct (visit_all_saved o x [] x' sv) as (_ & S1 & S2); [intros n Hn; apply Mem; exact Hn|exact H|]. unfold measure. split; [|split].
  - intro n. split.
    + intros (s & Hs). destruct (in_dec Nat.eq_dec n (node_ids g)) as [Hn|Hn].
      * apply node_ids_is_node in Hn. destruct (Nat.eq_dec (departures g n) 0) as [Z|Z]; [apply no_output_dep; assumption|].
        rewrite A1 in Hs; [discriminate|]. rewrite (no_output_dep n Hn); exact Z.
      * rewrite A1 in Hs; [discriminate|]. intros [Q _]; apply Hn; apply node_ids_is_node; exact Q.
    + intro Hn. assert (Hi : is_node g n) by apply Hn. specialize (S1 n (proj2 (Mem n) Hi) (proj1 (no_output_dep n Hi) Hn)).
      destruct (saved sv (PNode n)) as [s|]; [exists s; reflexivity|contradiction].
  - intro i. split.
    + intros (s & Hs). destruct (find (fun e => eid_eqb (e_id e) i) (g_edges g)) as [e|] eqn:F.
      * apply find_some in F as [F1 F2]. apply eid_eqb_eq in F2. exists e. split; [exact F1|exact F2].
      * rewrite A2 in Hs; [discriminate|]. intros e He E. pose proof (find_none _ _ F e He) as K. cbn beta in K. apply eid_eqb_neq in K. apply K. exact E.
    + intros (e & He & <-). specialize (S2 e He). change (e_src e, e_dst e, e_key e) with (e_id e).
      destruct (saved sv (PEdge (e_id e))) as [s|]; [exists s; reflexivity|]. exfalso. apply S2; [apply Mem; apply (wf_ends g W e He)|reflexivity].
  - intros p e. destruct (saved sv p); simpl; congruence.
Qed.

Lemma map_res_err : forall {A C} (f : A -> res C) l k, (exists a, In a l /\ exists e, f a = Err e) -> (forall a e, f a = Err e -> e = k) -> map_res f l = Err k.
Proof.
  induction l as [|a l IH]; intros k (b & Hb & e & He) Hk; [contradiction|]. simpl. destruct (f a) as [c|e1] eqn:E.
  - simpl. destruct Hb as [->|Hb]; [congruence|]. rewrite (IH k); [reflexivity|exists b; split; [exact Hb|exists e; exact He]|exact Hk].
  - simpl. f_equal. exact (Hk a e1 E).
Qed.

(* inspect_state *)
Lemma inspect_outcome : forall order x old x' sv, propagate B g src x old = (x', sv, Ok tt) -> (forall n, In n order <-> is_node g n) ->
  (g_edges g <> [] -> inspect_state order sv = Err KeyError) /\
  (g_edges g = [] -> exists ss, inspect_state order sv = Ok ss /\ length ss = length order).
Proof.
  intros order x old x' sv H Ho. destruct (measurable x old x' sv H) as (M1 & _ & M3). unfold inspect_state. split.
  - intro Hne. destruct (g_edges g) as [|e es] eqn:Ee; [contradiction|]. apply map_res_err.
    + exists (e_src e). assert (He : In e (g_edges g)) by (rewrite Ee; left; reflexivity). split.
      * apply -> in_rev. apply Ho. apply (wf_ends g W e He).
      * destruct (measure sv (PNode (e_src e))) as [s|er] eqn:Em; [|exists er; reflexivity]. exfalso.
        assert (K : no_output g (e_src e)) by (apply M1; exists s; exact Em). apply (proj2 K e He). reflexivity.
    + intros n er Hn. exact (M3 _ _ Hn).
  - intro Hnil. assert (K : forall n, In n (rev order) -> exists s, measure sv (PNode n) = Ok s).
    { intros n Hn. apply M1. apply in_rev in Hn. apply Ho in Hn. split; [exact Hn|]. rewrite Hnil. intros e []. }
    rewrite <- (rev_length order). clear Ho. induction (rev order) as [|n l IH]; [exists []; split; reflexivity|].
    destruct (K n (or_introl eq_refl)) as (s & Es). destruct IH as (ss & E & Ln); [intros m Hm; apply K; right; exact Hm|].
    exists (s :: ss). simpl. rewrite Es. simpl. rewrite E. simpl. split; [reflexivity|congruence].
Qed.
End Along.
