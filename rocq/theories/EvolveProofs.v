(** evolve_graph and random_graph: lineage, bounds, reset of splitters (C09, C10, C45). *)
From Coq Require Import List Arith Bool Lia ZArith QArith Qabs Qround Lqa Permutation.
From Verif Require Import Base GraphModel GraphSpec GraphProofs TopoProofs OperatorsModel OperatorsSpec OperatorsProofs EvolutionProofs
  TypingProofs EffectsProofs ParamsModel ParamsSpec EvolverModel EvolverSpec EvolveSpec ParamsProofs MatrixProofs EvolverProofs HessianProofs ChoiceProofs.
Import ListNotations.
Local Open Scope nat_scope.

(** ** Store extensions *)

Definition keeps (s s' : store) (i : nat) : Prop := forall o ps, has s i o ps -> has s' i o ps.
Definition good (s : store) (i : nat) : Prop := within s i /\ readable s i.

Lemma has_fun : forall s i o ps o' ps', has s i o ps -> has s i o' ps' -> o = o' /\ ps = ps'.
Proof. intros s i o ps o' ps' [H1 H2] [H3 H4]. rewrite H1 in H3; injection H3 as <-. rewrite H2 in H4; injection H4 as <-. auto. Qed.

Lemma keeps_good : forall s s' i, keeps s s' i -> good s i -> good s' i.
Proof.
  intros s s' i K [(o & ps & H & B) (o2 & ps2 & H2 & B2)]. split.
  - exists o, ps; split; [apply K; exact H|exact B].
  - exists o2, ps2; split; [apply K; exact H2|exact B2].
Qed.

Lemma keeps_trans : forall s s' s'' i, keeps s s' i -> keeps s' s'' i -> keeps s s'' i.
Proof. intros s s' s'' i K K' o ps H; apply K', K, H. Qed.

Lemma fresh_key_not_In : forall {A} (l : list (nat * A)), ~ In (fresh_key l) (map fst l).
Proof.
  intros A l. unfold fresh_key. assert (H : forall x, In x (map fst l) -> x <= fold_right Nat.max 0 (map fst l)).
  { induction (map fst l) as [|y r IH]; simpl; [tauto|]. intros x [->|Hx]; [lia|]. specialize (IH x Hx); lia. }
  intros C; apply H in C; lia.
Qed.

Lemma assoc_app_new : forall {A} (l : list (nat * A)) k a, ~ In k (map fst l) -> assoc k (l ++ [(k, a)]) = Some a.
Proof.
  induction l as [|[j b] r IH]; intros k a N; simpl; [rewrite Nat.eqb_refl; reflexivity|].
  simpl in N. destruct (Nat.eqb_spec k j) as [->|]; [tauto|]. apply IH; tauto.
Qed.

Lemma assoc_put : forall {A} k (a : A) l m, assoc m (put k a l) = if Nat.eqb m k then Some a else assoc m l.
Proof.
  intros A k a l m; unfold put. destruct (mem k (map fst l)) eqn:M.
  - apply mem_true in M. rewrite (assoc_set_assoc k m a l M). reflexivity.
  - apply mem_false in M. destruct (Nat.eqb_spec m k) as [->|N]; [apply assoc_app_new; exact M|].
    destruct (assoc m l) eqn:E; [apply assoc_app_l; exact E|]. clear M. induction l as [|[j b] r IH]; simpl in *.
    + destruct (Nat.eqb_spec m k); [congruence|reflexivity].
    + destruct (Nat.eqb m j); [discriminate|]. apply IH; exact E.
Qed.

(** ** Constructing a component *)

Lemma construct_keeps : forall s c i, i <> cid c -> keeps s (construct s c) i.
Proof.
  intros s c i N o ps [H1 H2]. unfold construct; split; cbn [s_objs s_lists].
  - rewrite assoc_put. destruct (Nat.eqb_spec i (cid c)); [congruence|exact H1].
  - apply assoc_app_l; exact H2.
Qed.

Lemma construct_has : forall s c, exists l, ~ In l (map fst (s_lists s)) /\
  has (construct s c) (cid c) (obj_of_spec l (spec_of (ccls c))) (sp_def (spec_of (ccls c))).
Proof.
  intros s c. exists (fresh_key (s_lists s)). split; [apply fresh_key_not_In|].
  unfold construct; split; cbn [s_objs s_lists o_list obj_of_spec].
  - rewrite assoc_put, Nat.eqb_refl. reflexivity.
  - apply assoc_app_new, fresh_key_not_In.
Qed.

Definition pair_ok (p : cspec) (k : nat) : bool :=
  match nth_error (sp_def p) k, nth_error (sp_lo p) k, nth_error (sp_hi p) k, nth_error (sp_types p) k, nth_error (sp_steps p) k with
  | Some (Num v), Some (Num lo), Some (Num hi), Some _, Some _ => Qle_bool lo v && Qle_bool v hi
  | _, _, _, _, _ => false
  end.
Definition spec_ok (p : cspec) : bool :=
  sp_lock p || forallb (fun k => match nth_error (sp_locks p) k with Some false => pair_ok p k | _ => true end) (seq 0 (length (sp_locks p))).

Lemma every_spec_ok : forall c, spec_ok (spec_of c) = true.
Proof. intros []; vm_compute; reflexivity. Qed.

Lemma spec_ok_good : forall p l s i, spec_ok p = true -> has s i (obj_of_spec l p) (sp_def p) -> good s i.
Proof.
  intros p l s i SO H.
  assert (B : forall k, free (obj_of_spec l p) k -> pair_ok p k = true).
  { intros k [F1 F2]; cbn [o_lock o_locks obj_of_spec] in *. unfold spec_ok in SO. rewrite F1 in SO. simpl in SO.
    rewrite forallb_forall in SO. specialize (SO k). rewrite F2 in SO. apply SO. apply in_seq.
    assert (k < length (sp_locks p)) by (apply nth_error_Some; congruence). lia. }
  split; exists (obj_of_spec l p), (sp_def p); (split; [exact H|]); intros k F; specialize (B k F); unfold pair_ok in B; cbn [o_lo o_hi o_types o_steps obj_of_spec].
  - destruct (nth_error (sp_def p) k) as [[v|]|]; try discriminate. destruct (nth_error (sp_lo p) k) as [[lo|]|]; try discriminate.
    destruct (nth_error (sp_hi p) k) as [[hi|]|]; try discriminate. destruct (nth_error (sp_types p) k); try discriminate.
    destruct (nth_error (sp_steps p) k); try discriminate. apply andb_true_iff in B; destruct B as [B1 B2]. apply Qle_bool_iff in B1, B2.
    exists v, lo, hi. auto.
  - repeat split; apply nth_error_Some; intros C; rewrite C in B;
      destruct (nth_error (sp_def p) k) as [[v|]|]; try discriminate; destruct (nth_error (sp_lo p) k) as [[lo|]|]; try discriminate;
      destruct (nth_error (sp_hi p) k) as [[hi|]|]; try discriminate; destruct (nth_error (sp_types p) k); discriminate.
Qed.

Lemma construct_good : forall s c, good (construct s c) (cid c).
Proof.
  intros s c. destruct (construct_has s c) as (l & _ & H). exact (spec_ok_good _ l _ _ (every_spec_ok (ccls c)) H).
Qed.

(** ** Resetting splitters *)

Lemma splitter_spec : forall s i n o, assoc i (s_objs s) = Some o -> exists s' l, splitter_update s i n = Ok s' /\
  (forall j, j <> i -> keeps s s' j) /\ (forall j, In j (map fst (s_objs s)) <-> In j (map fst (s_objs s'))) /\
  ~ In l (map fst (s_lists s)) /\
  has s' i (mkObj l (o_lock o) (rep (pred n) (dec 0 0)) (rep (pred n) (dec 1 0)) (rep (pred n) DFloat) (rep (pred n) None)
                  (rep (pred n) false) (Z.of_nat n - 1)%Z) (split_default (pred n)).
Proof.
  intros s i n o H. unfold splitter_update. rewrite (proj2 (get_obj_ok s i o) H). cbn [bind]. do 2 eexists. split; [reflexivity|].
  assert (Hin : In i (map fst (s_objs s))) by (eapply assoc_In_fst; exact H).
  split; [|split; [|split; [apply fresh_key_not_In|]]].
  - intros j N o' ps [H1 H2]. split; cbn [s_objs s_lists].
    + rewrite (assoc_set_assoc i j _ _ Hin). destruct (Nat.eqb_spec j i); [congruence|exact H1].
    + apply assoc_app_l; exact H2.
  - intros j; cbn [s_objs]. rewrite set_assoc_fst. tauto.
  - split; cbn [s_objs s_lists o_list].
    + rewrite (assoc_set_assoc i i _ _ Hin), Nat.eqb_refl. reflexivity.
    + apply assoc_app_new, fresh_key_not_In.
Qed.

Lemma split_default_length : forall n, length (split_default n) = n.
Proof. intros n; unfold split_default. rewrite map_length, rev_length, seq_length. reflexivity. Qed.

Lemma split_default_range : forall n k, k < n -> exists v, nth_error (split_default n) k = Some (Num v) /\ (0 <= v)%Q /\ (v <= 1)%Q.
Proof.
  intros n k H. destruct (nth_lt (split_default n) k) as (a & E); [rewrite split_default_length; exact H|].
  pose proof (nth_error_In _ _ E) as Hi. unfold split_default in Hi. apply in_map_iff in Hi; destruct Hi as (i & <- & Hi).
  eexists; split; [exact E|]. split.
  - unfold Qle, Qminus, Qplus, Qopp; cbn [Qnum Qden]. lia.
  - unfold Qle, Qminus, Qplus, Qopp; cbn [Qnum Qden]. lia.
Qed.

Lemma nth_rep : forall {A} (a : A) n k, k < n -> nth_error (rep n a) k = Some a.
Proof. intros A a n k H; unfold rep. apply nth_error_repeat; exact H. Qed.

Lemma splitter_good : forall s i l b n z, has s i (mkObj l b (rep n (dec 0 0)) (rep n (dec 1 0)) (rep n DFloat) (rep n None) (rep n false) z) (split_default n) -> good s i.
Proof.
  intros s i l b n z H. split; (eexists; eexists; split; [exact H|]); intros k [_ F]; cbn [o_locks o_lo o_hi o_types o_steps] in *;
    (assert (K : k < n) by (assert (X : k < length (rep n false)) by (apply nth_error_Some; congruence); unfold rep in X; rewrite repeat_length in X; exact X)).
  - destruct (split_default_range n k K) as (v & E & V0 & V1). exists v, 0%Q, 1%Q. rewrite (nth_rep _ n k K), (nth_rep _ n k K). auto.
  - rewrite split_default_length. unfold rep; rewrite !repeat_length. auto.
Qed.

Definition resettable (s : store) (p : node * ndata) : Prop :=
  In (cid (n_model (snd p))) (map fst (s_objs s)) /\
  (family_of (ccls (n_model (snd p))) = MultiPath \/ family_of (ccls (n_model (snd p))) = TermSource \/ family_of (ccls (n_model (snd p))) = TermSink).

Lemma update_fold : forall g ns s, (forall p, In p ns -> resettable s p) ->
  exists s', fold_res (fun s p => update_attributes s (n_model (snd p)) (get_out_degree g (fst p))) ns s = Ok s' /\
    (forall j, In j (map fst (s_objs s)) <-> In j (map fst (s_objs s'))) /\
    (forall j, good s j -> good s' j) /\
    (forall j, (forall p, In p ns -> family_of (ccls (n_model (snd p))) = MultiPath -> cid (n_model (snd p)) <> j) -> keeps s s' j) /\
    (forall p, In p ns -> family_of (ccls (n_model (snd p))) = MultiPath ->
       (forall q, In q ns -> cid (n_model (snd q)) = cid (n_model (snd p)) -> q = p) -> NoDup ns ->
       exists o, has s' (cid (n_model (snd p))) o (split_default (pred (get_out_degree g (fst p)))) /\ ~ In (o_list o) (map fst (s_lists s)) /\
                 o_lo o = rep (pred (get_out_degree g (fst p))) (dec 0 0) /\ o_hi o = rep (pred (get_out_degree g (fst p))) (dec 1 0) /\
                 o_locks o = rep (pred (get_out_degree g (fst p))) false) /\
    (forall l, In l (map fst (s_lists s)) -> In l (map fst (s_lists s'))).
Proof.
  induction ns as [|p ns IH]; intros s H; cbn [fold_res].
  - exists s. split; [reflexivity|]. split; [tauto|]. split; [auto|]. split; [intros j _ o ps X; exact X|]. split; [intros p []|auto].
  - assert (Step : exists s1, update_attributes s (n_model (snd p)) (get_out_degree g (fst p)) = Ok s1 /\
      (forall j, In j (map fst (s_objs s)) <-> In j (map fst (s_objs s1))) /\
      (forall j, good s j -> good s1 j) /\
      (forall j, (family_of (ccls (n_model (snd p))) = MultiPath -> cid (n_model (snd p)) <> j) -> keeps s s1 j) /\
      (family_of (ccls (n_model (snd p))) = MultiPath -> exists o, has s1 (cid (n_model (snd p))) o (split_default (pred (get_out_degree g (fst p)))) /\
         ~ In (o_list o) (map fst (s_lists s)) /\ o_lo o = rep (pred (get_out_degree g (fst p))) (dec 0 0) /\
         o_hi o = rep (pred (get_out_degree g (fst p))) (dec 1 0) /\ o_locks o = rep (pred (get_out_degree g (fst p))) false) /\
      (forall l, In l (map fst (s_lists s)) -> In l (map fst (s_lists s1)))).
    { destruct (H p (or_introl eq_refl)) as [I F]. unfold update_attributes.
      destruct (family_of (ccls (n_model (snd p)))) eqn:Ef; try (destruct F as [F|[F|F]]; discriminate).
      2: { exists s; split; [reflexivity|]. split; [tauto|]. split; [auto|]. split; [intros j _ o ps X; exact X|]. split; [discriminate|auto]. }
      2: { exists s; split; [reflexivity|]. split; [tauto|]. split; [auto|]. split; [intros j _ o ps X; exact X|]. split; [discriminate|auto]. }
      apply In_fst_ex in I; destruct I as (o0 & I).
      assert (Ho : exists o, assoc (cid (n_model (snd p))) (s_objs s) = Some o).
      { destruct (assoc (cid (n_model (snd p))) (s_objs s)) eqn:E; [eexists; reflexivity|]. exfalso. apply assoc_None in E. apply E. apply In_fst_ex. exists o0; exact I. }
      destruct Ho as (o & Ho). destruct (splitter_spec s (cid (n_model (snd p))) (get_out_degree g (fst p)) o Ho) as (s1 & l & E & K & D & Nl & Hh).
      exists s1. split; [exact E|]. split; [exact D|].
      split; [|split; [|split]].
      - intros j Gj. destruct (Nat.eq_dec j (cid (n_model (snd p)))) as [->|N]; [eapply splitter_good; exact Hh|]. eapply keeps_good; [apply K; exact N|exact Gj].
      - intros j N. apply K. intros C; apply (N eq_refl); congruence.
      - intros _. eexists; split; [exact Hh|]. cbn [o_list o_lo o_hi o_locks]. auto.
      - intros l' Hl'. unfold splitter_update in E. rewrite (proj2 (get_obj_ok s _ o) Ho) in E. cbn [bind] in E. injection E as <-.
        cbn [s_lists]. rewrite map_app. apply in_or_app; left; exact Hl'. }
    destruct Step as (s1 & E & D & Gd & K & M & Ls). rewrite E. cbn [bind].
    destruct (IH s1) as (s' & E' & D' & Gd' & K' & M' & Ls').
    { intros q Hq. destruct (H q (or_intror Hq)) as [I F]. split; [apply D; exact I|exact F]. }
    exists s'. split; [exact E'|]. split; [intros j; rewrite D; apply D'|]. split; [auto|]. split; [|split].
    + intros j N. eapply keeps_trans; [apply K; intros F; apply N; [left; reflexivity|exact F]|].
      apply K'. intros q Hq F; apply N; [right; exact Hq|exact F].
    + intros q Hq F U ND. inversion ND as [|? ? Np NDr]; subst. destruct Hq as [<-|Hq].
      * destruct (M F) as (o & Hh & R1 & R2). exists o. split; [|auto]. apply K'; [|exact Hh].
        intros r Hr Fr C. apply Np. rewrite <- (U r (or_intror Hr) C). exact Hr.
      * destruct (M' q Hq F) as (o & Hh & R1 & R2); [intros r Hr; apply U; right; exact Hr|exact NDr|].
        exists o; split; [exact Hh|]. split; [intros C; apply R1, Ls; exact C|exact R2].
    + intros l Hl; apply Ls', Ls; exact Hl.
Qed.

(** ** Components after one operator *)

Definition drawn (o : op) (d : draws) (c : comp) : Prop :=
  match o with
  | AddSeries => c = d_edge d \/ c = d_node d
  | AddParallel => c = d_edge d
  | Remove => False
  | Swap => c = d_swap d
  end.

Lemma used_components : forall g i, used g i <-> exists c, In c (components g) /\ cid c = i.
Proof.
  intros g i; unfold used, components; split.
  - intros (c & [n|j] & H & <-); exists c; split; try reflexivity; apply in_or_app.
    + left. destruct H as (d & Hd & <-). apply in_map_iff; exists (n, d); auto.
    + right. destruct H as (e & He & _ & <-). apply in_map_iff; exists e; auto.
  - intros (c & H & <-). apply in_app_or in H; destruct H as [H|H]; apply in_map_iff in H; destruct H as (x & <- & Hx).
    + exists (n_model (snd x)), (PNode (fst x)). split; [|reflexivity]. exists (snd x). split; [destruct x; exact Hx|reflexivity].
    + exists (e_model (e_dat x)), (PEdge (e_src x, e_dst x, e_key x)). split; [|reflexivity]. exists x; auto.
Qed.

Lemma components_In : forall g c, In c (components g) <->
  (exists n d, In (n, d) (g_nodes g) /\ n_model d = c) \/ (exists a b d, In (a, b, d) (triples g) /\ e_model d = c).
Proof.
  intros g c; unfold components. rewrite in_app_iff, !in_map_iff. split; (intros [H|H]; [left|right]).
  - destruct H as ([n d] & E & H); exists n, d; auto.
  - destruct H as (e & E & H). exists (e_src e), (e_dst e), (e_dat e). split; [apply In_triples; exists e; auto|exact E].
  - destruct H as (n & d & H & E); exists (n, d); auto.
  - destruct H as (a & b & d & H & E). apply In_triples in H; destruct H as (e & He & _ & _ & <-). exists e; auto.
Qed.

Lemma In_set_assoc : forall {A} n (d : A) l m x, In (m, x) (set_assoc n d l) -> In (m, x) l \/ x = d.
Proof.
  induction l as [|[k y] r IH]; intros m x; simpl; [tauto|]. destruct (Nat.eqb n k); simpl.
  - intros [E|H]; [injection E as <- <-; right; reflexivity|left; right; exact H].
  - intros [E|H]; [left; left; exact E|]. destruct (IH m x H); auto.
Qed.

Lemma remove_edge_triples : forall g i t, In t (triples (remove_edge g i)) -> In t (triples g).
Proof.
  intros g i [[a b] d] H. apply In_triples in H; destruct H as (e & He & E). apply In_remove_edge in He; destruct He as [He _].
  apply In_triples; exists e; auto.
Qed.

Lemma apply_components : forall L o g l d g' c, wf g -> acyclic g -> apply_op L o g l d = Some g' ->
  In c (components g') -> In c (components g) \/ drawn o d c.
Proof.
  intros L o g l d g' c W A H Hc. apply components_In in Hc.
  assert (Tr : forall g0 a b u v x y, In (a, b, x) (triples (add_edge g0 u v y)) -> In (a, b, x) (triples g0) \/ x = y).
  { intros g0 a b u v x y Hx. apply (Permutation_in _ (add_edge_triples g0 u v y)) in Hx. destruct Hx as [E|Hx]; [injection E as <- <- <-; auto|auto]. }
  assert (OldE : forall a b x, In (a, b, x) (triples g) -> In (e_model x) (components g)).
  { intros a b x Hx. apply components_In; right; exists a, b, x; auto. }
  assert (OldN : forall n x, In (n, x) (g_nodes g) -> In (n_model x) (components g)).
  { intros n x Hx. apply components_In; left; exists n, x; auto. }
  destruct o; destruct l as [n|i|n i|n m]; simpl in H; try discriminate.
  - unfold apply_series in H. destruct (find_edge g i) as [e|] eqn:Fe; [|discriminate].
    apply find_edge_In in Fe; destruct Fe as [He _].
    assert (He' : In (e_model (e_dat e)) (components g)) by (apply (OldE (e_src e) (e_dst e)); apply In_triples; exists e; auto).
    assert (Nn : forall n' x, In (n', x) (g_nodes (add_node g (d_id d) (fresh_ndata (d_node d)))) -> In (n_model x) (components g) \/ n_model x = d_node d).
    { intros n' x Hx. unfold add_node in Hx. destruct (has_node g (d_id d)); cbn [g_nodes] in Hx.
      - apply In_set_assoc in Hx. destruct Hx as [Hx| ->]; [left; eapply OldN; exact Hx|right; reflexivity].
      - apply in_app_or in Hx; destruct Hx as [Hx|[E|[]]]; [left; eapply OldN; exact Hx|injection E as <- <-; right; reflexivity]. }
    assert (Et : forall t, In t (triples (remove_edge (add_node g (d_id d) (fresh_ndata (d_node d))) i)) -> In t (triples g)).
    { intros t Ht. apply remove_edge_triples in Ht. unfold triples, add_node in *. destruct (has_node g (d_id d)); exact Ht. }
    destruct (Nat.eqb n (e_src e)); injection H as <-; (destruct Hc as [(n' & x & Hx & <-)|(a & b & x & Hx & <-)];
      [destruct (Nn n' x Hx) as [X|X]; [left; exact X|right; right; exact X]|]);
      apply Tr in Hx; (destruct Hx as [Hx| ->]; [|first [left; exact He'|right; left; reflexivity]]);
      apply Tr in Hx; (destruct Hx as [Hx| ->]; [|first [left; exact He'|right; left; reflexivity]]);
      left; apply Et in Hx; eapply OldE; exact Hx.
  - unfold apply_parallel in H. destruct (has_node g n && has_node g m); [|discriminate]. injection H as <-.
    destruct Hc as [(n' & x & Hx & <-)|(a & b & x & Hx & <-)]; [left; eapply OldN; exact Hx|].
    apply Tr in Hx; destruct Hx as [Hx| ->]; [left; eapply OldE; exact Hx|right; reflexivity].
  - unfold apply_remove in H. destruct (find_edge g i) as [e|] eqn:Fe; [|discriminate]. apply find_edge_In in Fe; destruct Fe as [He Ei]. subst i.
    destruct (has_path (remove_edge g (e_id e)) (e_src e) (e_dst e)) eqn:Hp.
    + injection H as <-. left. destruct Hc as [(n' & x & Hx & <-)|(a & b & x & Hx & <-)]; [eapply OldN; exact Hx|].
      apply remove_edge_triples in Hx. eapply OldE; exact Hx.
    + apply (has_path_false _ _ _ (wf_remove_edge g (e_id e) W)) in Hp.
      destruct (merge_facts g e A He Hp) as (M1 & M2 & M3).
      destruct (node_data (remove_edge g (e_id e)) n) as [save|] eqn:Sv; [|discriminate]. injection H as <-. left.
      destruct Hc as [(n' & x & Hx & <-)|(a & b & x & Hx & <-)].
      * unfold set_node_data in Hx; cbn [g_nodes] in Hx. apply In_set_assoc in Hx; destruct Hx as [Hx| ->].
        -- rewrite contract_nodes in Hx. apply filter_In in Hx; destruct Hx as [Hx _]. eapply OldN; exact Hx.
        -- apply node_data_In in Sv. eapply OldN; exact Sv.
      * assert (Hx' : In (a, b, x) (triples (contract (remove_edge g (e_id e)) (e_src e) (e_dst e)))) by exact Hx.
        apply (Permutation_in _ (contract_triples _ _ _ (acyclic_no_loop g e A He) M1 M2 M3)) in Hx'.
        apply in_map_iff in Hx'; destruct Hx' as ([[a' b'] x'] & E & Hx'). simpl in E; injection E as _ _ ->.
        apply remove_edge_triples in Hx'. eapply OldE; exact Hx'.
  - unfold apply_swap_node in H. destruct (node_data g n) as [nd|]; [|discriminate].
    destruct (swap_set _ _); injection H as <-.
    + left. destruct Hc as [(n' & x & Hx & <-)|(a & b & x & Hx & <-)]; [eapply OldN; exact Hx|eapply OldE; exact Hx].
    + destruct Hc as [(n' & x & Hx & <-)|(a & b & x & Hx & <-)]; [|left; eapply OldE; exact Hx].
      unfold set_node_data in Hx; cbn [g_nodes] in Hx. apply In_set_assoc in Hx; destruct Hx as [Hx| ->]; [left; eapply OldN; exact Hx|right; reflexivity].
  - unfold apply_swap_edge in H. destruct (find_edge g i) as [e|]; [|discriminate].
    destruct (swap_set _ _); injection H as <-.
    + left. destruct Hc as [(n' & x & Hx & <-)|(a & b & x & Hx & <-)]; [eapply OldN; exact Hx|eapply OldE; exact Hx].
    + destruct Hc as [(n' & x & Hx & <-)|(a & b & x & Hx & <-)]; [left; eapply OldN; exact Hx|].
      apply In_triples in Hx; destruct Hx as (y & Hy & _ & _ & <-). unfold set_edge_data in Hy; cbn [g_edges] in Hy.
      apply in_map_iff in Hy; destruct Hy as (z & E & Hz). destruct (eid_eqb (e_id z) i); subst y; [right; reflexivity|].
      left. apply (OldE (e_src z) (e_dst z)); apply In_triples; exists z; auto.
Qed.

(** ** What create_matrix can return *)

Section Create.
Variables (L : library) (ops : list op) (g : graph) (s : store) (hs : option matrix) (sh : list nat -> list nat).
Hypothesis W : wf g.
Hypothesis A : acyclic g.
Hypothesis OND : NoDup ops.
Hypothesis shP : forall l, Permutation (sh l) l.

Definition proper (rows : list location) (f : location -> op -> Q) : Prop :=
  NoDup rows /\ (forall l o, In l rows -> In o ops -> 0 <= f l o)%Q /\ (total rows ops f == 1)%Q /\
  (forall l o, In l rows -> In o ops -> ~ offers L g o l -> f l o == 0)%Q.

Lemma weigh_cases : forall ord w scale h, topological_sort g = Some ord -> n_choices L ops g <> 0 -> good_scale L ops g ord scale h ->
  weigh w scale ops (tab (row_list g ord) ops (base L ops g ord)) = Err RuntimeWarning \/
  exists f, weigh w scale ops (tab (row_list g ord) ops (base L ops g ord)) = Ok (tab (row_list g ord) ops f) /\ proper (row_list g ord) f.
Proof.
  intros ord w scale h T N GS. destruct (Qeq_dec (weight_sum L ops g w) 0) as [Z|NZ].
  - left. apply (weigh_zero L ops g ord W A OND T w _ _ GS N Z).
  - assert (D : (exists o, In o ops /\ applicable L g o /\ w o / weight_sum L ops g w < 0)%Q \/
                (forall o, In o ops -> applicable L g o -> 0 <= w o / weight_sum L ops g w)%Q).
    { generalize (weight_sum L ops g w) as Wt. intros Wt. clear - ops. induction ops as [|o r IH]; [right; intros o []|]. 
      destruct IH as [(o' & Ho & X)|IH].
      - left; exists o'; split; [right; exact Ho|exact X].
      - destruct (places L g o) eqn:E.
        + right. intros o' [->|Ho] Ap; [unfold applicable in Ap; congruence|apply IH; assumption].
        + destruct (Qlt_le_dec (w o / Wt) 0) as [Lt|Ge].
          * left; exists o; split; [left; reflexivity|]. split; [unfold applicable; rewrite E; discriminate|exact Lt].
          * right. intros o' [<-|Ho] Ap; [exact Ge|apply IH; assumption]. }
    destruct D as [(o & Ho & Ap & Neg)|Pos].
    + left. apply (weigh_negative L ops g ord W A OND T w _ _ GS N o Ho Ap NZ Neg).
    + right. exists (final L ops g ord w h). split; [exact (weigh_ok L ops g ord W A OND T w _ _ GS N NZ Pos)|].
      split; [eapply rowsND; eassumption|]. split; [|split].
      * eapply final_nonneg; eassumption.
      * eapply final_total; eassumption.
      * intros l o Hl Ho NO. exact (final_zero L ops g ord W A OND T w _ _ GS N l o Hl Ho NO NZ).
Qed.

Lemma hessian_good : forall ord, topological_sort g = Some ord -> n_choices L ops g <> 0 ->
  (In Remove ops -> exists sc, all_edge_scores g s hs = Ok sc) ->
  exists h, good_scale L ops g ord (hscale g s hs sh ord) h.
Proof.
  intros ord T N Sc. pose proof (good_id L ops g ord W A OND T N) as GI.
  destruct (in_dec op_eq_dec Remove ops) as [HR|NR].
  2: { exists (fun o l => base L ops g ord l o). intros o Ho. destruct (GI o Ho) as (G1 & G2 & G3 & G4).
       assert (E : hscale g s hs sh ord o (map (fun l => base L ops g ord l o) (row_list g ord)) = Ok (map (fun l => base L ops g ord l o) (row_list g ord)))
         by (destruct o; try reflexivity; contradiction).
       split; [exact E|auto]. }
  destruct (Sc HR) as (sc & Es). set (rows := row_list g ord). set (b := fun l => base L ops g ord l Remove).
  assert (RND : NoDup rows) by (eapply rowsND; eassumption).
  assert (C0 : forall l, close0 (b l) = false -> offers L g Remove l).
  { intros l C. destruct (in_dec location_eq_dec l (places L g Remove)) as [I|I]; [exact I|]. exfalso.
    assert (X : close0 (b l) = true); [|congruence]. unfold close0. apply Qle_bool_iff. unfold b.
    rewrite (proj2 (base_val L ops g ord W A OND T l Remove N)) by (unfold offers; tauto). vm_compute; discriminate. }
  assert (CO : forall l, In l rows -> close0 (b l) = false -> exists n e v, l = LIface n e /\ assoc_eid e sc = Some v).
  { intros l _ C. eapply remove_scored; [exact W|exact Es|exact (C0 l C)]. }
  destruct (cands rows b) as [|c0 cr] eqn:Ec.
  - exists (fun o l => base L ops g ord l o). intros o Ho. destruct (GI o Ho) as (G1 & G2 & G3 & G4).
    assert (E : hscale g s hs sh ord o (map (fun l => base L ops g ord l o) rows) = Ok (map (fun l => base L ops g ord l o) rows)).
    { destruct o; try reflexivity. unfold hscale. rewrite Es. cbn [bind]. exact (tournament_none sh rows sc b CO Ec). }
    split; [exact E|auto].
  - assert (NE : cands rows b <> []) by (rewrite Ec; discriminate).
    destruct (tournament_spec sh rows sc b RND shP CO NE) as (best & chosen & E & C1 & C2 & C3 & C4 & C5).
    assert (Ob : offers L g Remove best). { apply C3 in C4. unfold cands in C4; apply filter_In in C4; destruct C4 as [_ C4]. apply negb_true_iff in C4. apply C0; exact C4. }
    assert (Hb : In best rows) by (eapply places_in_rows; [exact W|exact T|exact Ob]).
    exists (hh L ops g ord (Some best)).
    intros o Ho. destruct (GI o Ho) as (G1 & G2 & G3 & G4).
    destruct o; try (split; [reflexivity|split; [exact G2|split; [exact G3|exact G4]]]).
    split; [unfold hscale; rewrite Es; cbn [bind]; exact E|]. unfold hh. split; [|split].
    + intros l _. destruct (location_eq_dec l best); lra.
    + intros l _ NO. destruct (location_eq_dec l best) as [->|]; [|reflexivity]. exfalso; apply NO; exact Ob.
    + intros _. apply Qlt_le_trans with 1%Q; [lra|]. apply qsum_ge_elem.
      * intros q Hq; apply in_map_iff in Hq; destruct Hq as (l & <- & _). destruct (location_eq_dec l best); lra.
      * apply in_map_iff; exists best; split; [destruct (location_eq_dec best best); [reflexivity|congruence]|exact Hb].
Qed.

Lemma create_cases : forall ev,
  (exists rows f, create_matrix L ops ev g s hs sh = Ok (rows, tab rows ops f) /\ proper rows f) \/
  create_matrix L ops ev g s hs sh = Err RuntimeWarning \/
  (exists e, all_edge_scores g s hs = Err e /\ create_matrix L ops ev g s hs sh = Err e).
Proof.
  intros ev. destruct (Nat.eq_dec (n_choices L ops g) 0) as [N|N]; [right; left; apply no_choice; assumption|].
  destruct (toposort_some g W A) as (ord & T & _). destruct ev as [|w|w].
  - left. exists (row_list g ord), (base L ops g ord). split; [unfold create_matrix; rewrite (base_ok L ops g ord W A OND T N); reflexivity|].
    split; [eapply rowsND; eassumption|]. split; [intros; apply base_nonneg; assumption|]. split; [apply base_total; assumption|].
    intros l o _ _ NO. apply (proj2 (base_val L ops g ord W A OND T l o N)). tauto.
  - unfold create_matrix. rewrite (base_ok L ops g ord W A OND T N). cbn [bind].
    destruct (weigh_cases ord w _ _ T N (good_id L ops g ord W A OND T N)) as [E|(f & E & P)]; rewrite E; cbn [bind].
    + right; left; reflexivity.
    + left. exists (row_list g ord), f. split; [reflexivity|exact P].
  - assert (D : (In Remove ops /\ exists e, all_edge_scores g s hs = Err e) \/ (In Remove ops -> exists sc, all_edge_scores g s hs = Ok sc)).
    { destruct (in_dec op_eq_dec Remove ops) as [HR|NR]; [|right; tauto]. destruct (all_edge_scores g s hs) as [sc|e] eqn:E; [right; eauto|left; eauto]. }
    destruct D as [(HR & e & Ee)|Sc].
    + right; right. exists e. split; [exact Ee|]. eapply hessian_no_scores; eassumption.
    + destruct (hessian_good ord T N Sc) as (h & GS). rewrite (hessian_unfold L ops g s hs sh W A OND w ord T N).
      destruct (weigh_cases ord w _ _ T N GS) as [E|(f & E & P)]; rewrite E; cbn [bind].
      * right; left; reflexivity.
      * left. exists (row_list g ord), f. split; [reflexivity|exact P].
Qed.

Lemma pick_cases : forall ev u, (0 <= u)%Q -> (u < 1)%Q ->
  (exists l o, pick L ops ev g s hs sh u = Ok (l, o) /\ In o ops /\ offers L g o l) \/
  (exists e, pick L ops ev g s hs sh u = Err e /\ (e = RuntimeWarning \/ all_edge_scores g s hs = Err e)).
Proof.
  intros ev u U U1. destruct (create_cases ev) as [(rows & f & E & ND & Pos & T & Z)|[E|(e & Ee & E)]].
  - left. destruct (pick_table L ops ev g s hs sh rows f ND OND E Pos T) as [_ P]. destruct (P u U U1) as (l & o & Hl & Ho & Ps & Ep).
    exists l, o. split; [exact Ep|]. split; [exact Ho|]. destruct (in_dec location_eq_dec l (places L g o)) as [I|I]; [exact I|].
    rewrite (Z l o Hl Ho I) in Ps. lra.
  - right. exists RuntimeWarning. unfold pick. rewrite E. split; [reflexivity|left; reflexivity].
  - right. exists e. unfold pick. rewrite E. split; [reflexivity|right; exact Ee].
Qed.

End Create.

(** ** evolve_graph in terms of the pick *)

Lemma evolve_pick : forall L ops ev gen w ch,
  evolve_graph L ops ev gen w ch =
  match pick L ops (prepare ev gen) (w_graph w) (w_store w) (w_hess w) (ch_shuffle ch) (ch_u ch) with
  | Err e => (w, Err e)
  | Ok (l, o) =>
      match apply_op L o (w_graph w) l (ch_draws ch) with
      | None => (w, Err KeyError)
      | Some g' =>
          let s1 := construct_drawn L o l (w_graph w) (ch_draws ch) (w_store w) in
          match update_graph g' s1 with
          | Err e => (mkW g' s1 (w_cur w) (w_parent w) (w_mut w) (w_hess w), Err e)
          | Ok s2 =>
              match (do x <- extract g' s2; bounds_assertion x) with
              | Err e => (mkW g' s2 (w_cur w) (w_parent w) (w_mut w) (w_hess w), Err e)
              | Ok _ => (mkW g' s2 (ch_uuid ch) (w_cur w) (Some o) (w_hess w), Ok o)
              end
          end
      end
  end.
Proof.
  intros. unfold evolve_graph, pick. destruct (create_matrix _ _ _ _ _ _ _) as [[rows m]|e]; cbn [bind fst snd]; [|reflexivity].
  destruct (sample_matrix rows ops m (ch_u ch)) as [[l o]|e]; reflexivity.
Qed.

Lemma evolve_ids : forall L ops w c w' r, do_call L ops w c = (w', r) ->
  (exists o, r = Ok o /\ w_cur w' = ch_uuid (c_ch c) /\ w_parent w' = w_cur w /\ w_mut w' = Some o) \/
  (exists e, r = Err e /\ w_cur w' = w_cur w /\ w_parent w' = w_parent w /\ w_mut w' = w_mut w).
Proof.
  intros L ops w c w' r H. unfold do_call in H. rewrite evolve_pick in H. cbv zeta in H.
  destruct (pick _ _ _ _ _ _ _ _) as [[l o]|e]; [|injection H as <- <-; right; eexists; repeat split; reflexivity].
  destruct (apply_op _ _ _ _ _) as [g'|]; [|injection H as <- <-; right; eexists; repeat split; reflexivity].
  destruct (update_graph _ _) as [s2|e]; [|injection H as <- <-; right; eexists; repeat split; reflexivity].
  destruct (bind _ _) as [x|e]; injection H as <- <-; [left|right]; eexists; repeat split; reflexivity.
Qed.

(** ** Every call is at most one evolution step *)

Lemma evolve_graph_step : forall L ops w c w' r, NoDup ops -> wf (w_graph w) -> acyclic (w_graph w) -> fair L ops w c ->
  do_call L ops w c = (w', r) ->
  (exists o, In o ops /\ evo_step L (w_graph w) o (w_graph w') /\ (r = Ok o \/ exists e, r = Err e)) \/
  (w' = w /\ exists e, r = Err e).
Proof.
  intros L ops w c w' r OND W A (U0 & U1 & Sh & Dr) H. unfold do_call in H. rewrite evolve_pick in H. cbv zeta in H.
  destruct (pick_cases L ops (w_graph w) (w_store w) (w_hess w) (ch_shuffle (c_ch c)) W A OND Sh (prepare (c_ev c) (c_gen c)) (ch_u (c_ch c)) U0 U1)
    as [(l & o & E & Ho & Of)|(e & E & _)].
  - specialize (Dr l o E). rewrite E in H. unfold offers, places in Of.
    destruct (possible_locations L o (w_graph w)) as [locs|] eqn:Pl; [|destruct Of].
    destruct (apply_op_total L o (w_graph w) l (ch_draws (c_ch c)) locs W Pl Of) as (g' & Ap). rewrite Ap in H.
    assert (St : evo_step L (w_graph w) o g') by (econstructor; eassumption).
    left. exists o. split; [exact Ho|].
    destruct (update_graph _ _) as [s2|e]; [|injection H as <- <-; split; [exact St|right; eexists; reflexivity]].
    destruct (bind _ _) as [x|e]; injection H as <- <-; (split; [exact St|]); [left; reflexivity|right; eexists; reflexivity].
  - rewrite E in H. injection H as <- <-. right. split; [reflexivity|eexists; reflexivity].
Qed.

Lemma calls_run : forall L ops w h w', NoDup ops -> calls L ops w h w' -> wf (w_graph w) -> acyclic (w_graph w) ->
  (forall a c r b, In (a, c, r, b) h -> fair L ops a c) ->
  exists os, incl os ops /\ evo_run L (w_graph w) os (w_graph w').
Proof.
  intros L ops w h w' OND C; induction C as [w|w c w1 r h w'' E C IH]; intros W A F; [exists []; split; [intros x []|constructor]|].
  destruct (evolve_graph_step L ops w c w1 r OND W A (F w c r w1 (or_introl eq_refl)) E) as [(o & Ho & St & _)|(-> & _)].
  - destruct (step_effect L _ o _ W A St) as [W' Ef]. pose proof (effect_acyclic L _ o _ W A Ef) as A'.
    destruct (IH W' A' (fun a c' r' b Hin => F a c' r' b (or_intror Hin))) as (os & I & R).
    exists (o :: os). split; [intros x [<-|Hx]; [exact Ho|apply I; exact Hx]|econstructor; eassumption].
  - apply IH; [exact W|exact A|]. intros a c' r' b Hin; apply (F a c' r' b); right; exact Hin.
Qed.

(** ** Bounds *)

Lemma list_le_elementwise : forall a b, length a = length b ->
  (forall k, k < length a -> exists x y, nth_error a k = Some (Num x) /\ nth_error b k = Some (Num y) /\ (x <= y)%Q) ->
  list_le a b = Ok true.
Proof.
  induction a as [|x r IH]; intros [|y q] Len H; simpl in *; try discriminate; [reflexivity|].
  destruct (H 0 ltac:(lia)) as (u & v & E1 & E2 & Le). simpl in E1, E2. injection E1 as ->. injection E2 as ->.
  destruct (py_eq (Num u) (Num v)) eqn:Eq; [apply IH; [lia|intros k Hk; apply (H (S k)); lia]|].
  simpl. f_equal. apply Qle_bool_iff; exact Le.
Qed.

Lemma within_assertion : forall g s x, wf g -> all_within g s -> extract g s = Ok x -> bounds_assertion x = Ok tt.
Proof.
  intros g s x W AW E. destruct (extract_aligned g s x W E) as (L1 & L2 & _ & _ & _ & _ & _ & Al).
  assert (Pt : forall i, i < length (x_params x) -> exists v lo hi, nth_error (x_params x) i = Some (Num v) /\
     nth_error (x_lo x) i = Some (Num lo) /\ nth_error (x_hi x) i = Some (Num hi) /\ (lo <= v)%Q /\ (v <= hi)%Q).
  { intros i Hi. destruct (Al i Hi) as (c & pl & k & o & ps & v & lo & hi & t & st & S & H & F & _ & _ & _ & E1 & E2 & E3 & E4 & E5 & E6 & _).
    destruct (AW (cid c)) as (o' & ps' & H' & B); [exists c, pl; auto|]. destruct (has_fun _ _ _ _ _ _ H H') as [<- <-].
    destruct (B k F) as (v' & lo' & hi' & B1 & B2 & B3 & B4 & B5). exists v', lo', hi'. rewrite E1, E3, E5. rewrite <- E2, <- E4, <- E6. auto. }
  unfold bounds_assertion. rewrite (list_le_elementwise (x_lo x) (x_params x)); cbn [bind].
  - rewrite (list_le_elementwise (x_params x) (x_hi x)); [reflexivity|congruence|]. intros k Hk.
    destruct (Pt k Hk) as (v & lo & hi & E1 & E2 & E3 & B1 & B2). exists v, hi; auto.
  - exact L1.
  - intros k Hk. rewrite L1 in Hk. destruct (Pt k Hk) as (v & lo & hi & E1 & E2 & E3 & B1 & B2). exists lo, v; auto.
Qed.

Lemma used_ids_In : forall g i, In i (used_ids g) <-> used g i.
Proof.
  intros g i. rewrite used_components. unfold used_ids, components. rewrite in_app_iff, !in_map_iff. split.
  - intros [(p & <- & H)|(e & <- & H)]; eexists; (split; [apply in_or_app|reflexivity]); [left|right]; apply in_map_iff; eexists; split; try reflexivity; exact H.
  - intros (c & H & <-). apply in_app_or in H; destruct H as [H|H]; apply in_map_iff in H; destruct H as (x & <- & Hx); [left|right]; exists x; auto.
Qed.

Lemma constructed_good : forall L o g l d g' s i, wf g -> acyclic g -> apply_op L o g l d = Some g' -> draws_ok L o g l d ->
  (forall j, used g j -> good s j) -> used g' i -> good (construct_drawn L o l g d s) i.
Proof.
  intros L o g l d g' s i W A Ap Dr G U. apply used_components in U; destruct U as (c & Hc & <-).
  destruct (apply_components L o g l d g' c W A Ap Hc) as [Old|New].
  - assert (Us : used g (cid c)) by (apply used_components; exists c; auto). specialize (G _ Us). apply used_ids_In in Us.
    destruct o; simpl in *.
    + destruct Dr as (_ & _ & _ & _ & F1 & F2 & _). eapply keeps_good; [|exact G]. eapply keeps_trans; apply construct_keeps; congruence.
    + destruct Dr as (_ & _ & F1). eapply keeps_good; [|exact G]. apply construct_keeps; congruence.
    + exact G.
    + eapply keeps_good; [|exact G]. apply construct_keeps. destruct l; try contradiction; destruct Dr as (_ & _ & F1); congruence.
  - destruct o; simpl in *; subst.
    + destruct Dr as (_ & _ & _ & _ & _ & _ & F3 & _). destruct New as [->| ->]; [|apply construct_good].
      eapply keeps_good; [apply construct_keeps; exact F3|apply construct_good].
    + apply construct_good.
    + contradiction.
    + apply construct_good.
Qed.

Lemma typed_nodes : forall g n d, wf g -> typed g -> In (n, d) (g_nodes g) ->
  family_of (ccls (n_model d)) = MultiPath \/ family_of (ccls (n_model d)) = TermSource \/ family_of (ccls (n_model d)) = TermSink.
Proof.
  intros g n d W T H. assert (M : model_at g n (n_model d)) by (exists d; auto).
  assert (Nn : is_node g n) by (exists d; exact H).
  destruct (no_input_dec g n Nn) as [I|I]; [rewrite (ty_source g T n _ I M); auto|].
  destruct (no_output_dec g n Nn) as [O|O]; [rewrite (ty_sink g T n _ I O M); auto|].
  left. apply (ty_inner g T n); [split; auto|exact M].
Qed.

Lemma good_obj : forall s i, good s i -> In i (map fst (s_objs s)).
Proof. intros s i [(o & ps & [H _] & _) _]. eapply assoc_In_fst; exact H. Qed.

Lemma update_good : forall g s, wf g -> acyclic g -> typed g -> (forall i, used g i -> good s i) ->
  exists s', update_graph g s = Ok s' /\ (forall i, used g i -> good s' i) /\
    (forall j, (forall n d, In (n, d) (g_nodes g) -> family_of (ccls (n_model d)) = MultiPath -> cid (n_model d) <> j) -> keeps s s' j) /\
    (distinct_objects g -> forall n d, In (n, d) (g_nodes g) -> family_of (ccls (n_model d)) = MultiPath ->
       exists o, has s' (cid (n_model d)) o (split_default (pred (departures g n))) /\ ~ In (o_list o) (map fst (s_lists s)) /\
                 o_lo o = rep (pred (departures g n)) (dec 0 0) /\ o_hi o = rep (pred (departures g n)) (dec 1 0) /\
                 o_locks o = rep (pred (departures g n)) false).
Proof.
  intros g s W A T G. unfold update_graph. destruct (toposort_some g W A) as (ord & Et & _). rewrite Et.
  destruct (update_fold g (g_nodes g) s) as (s' & E & _ & Gd & K & M & _).
  - intros [n d] H. split; [|eapply typed_nodes; eassumption]. apply good_obj, G. apply used_components.
    exists (n_model d). split; [apply components_In; left; exists n, d; auto|reflexivity].
  - exists s'. split; [exact E|]. split; [auto|]. split.
    + intros j N. apply K. intros [n d] H F. apply (N n d H F).
    + intros DO n d H F. replace (departures g n) with (get_out_degree g n) by (rewrite (get_out_degree_eq g n W); reflexivity).
      apply (M (n, d) H F).
      * intros [n' d'] H' Ec. simpl in Ec. unfold distinct_objects, components in DO. rewrite map_app, map_map in DO.
        apply NoDup_app_l in DO. eapply (NoDup_map_inj_In (fun p => cid (n_model (snd p)))); [exact DO|exact H'|exact H|exact Ec].
      * apply NoDup_map_inv with (f := fst). exact (wf_nodes g W).
Qed.

Lemma evolve_within : forall L ops w c w' r, lib_ok L -> NoDup ops -> sound w -> fair L ops w c -> do_call L ops w c = (w', r) ->
  sound w' /\
  ((exists o, r = Ok o /\ In o ops /\ evo_step L (w_graph w) o (w_graph w')) \/
   (w' = w /\ (r = Err RuntimeWarning \/ r = Err ValueError))).
Proof.
  intros L ops w c w' r LO OND (W & A & T & Rd & Wi) (U0 & U1 & Sh & Dr) H. unfold do_call in H. rewrite evolve_pick in H. cbv zeta in H.
  destruct (pick_cases L ops (w_graph w) (w_store w) (w_hess w) (ch_shuffle (c_ch c)) W A OND Sh (prepare (c_ev c) (c_gen c)) (ch_u (c_ch c)) U0 U1)
    as [(l & o & E & Ho & Of)|(e & E & Er)].
  - specialize (Dr l o E). rewrite E in H. unfold offers, places in Of.
    destruct (possible_locations L o (w_graph w)) as [locs|] eqn:Pl; [|destruct Of].
    destruct (apply_op_total L o (w_graph w) l (ch_draws (c_ch c)) locs W Pl Of) as (g' & Ap). rewrite Ap in H.
    assert (St : evo_step L (w_graph w) o g') by (econstructor; eassumption).
    destruct (step_effect L _ o _ W A St) as [W' Ef]. pose proof (effect_acyclic L _ o _ W A Ef) as A'.
    pose proof (effect_typed L _ o _ LO W A W' Ef T) as T'.
    set (s1 := construct_drawn L o l (w_graph w) (ch_draws (c_ch c)) (w_store w)) in *.
    assert (G1 : forall i, used g' i -> good s1 i).
    { intros i Ui. eapply (constructed_good L o (w_graph w) l (ch_draws (c_ch c)) g'); try eassumption. intros j Uj; split; [apply Wi|apply Rd]; exact Uj. }
    destruct (update_good g' s1 W' A' T' G1) as (s2 & Eu & G2 & _). rewrite Eu in H.
    assert (R2 : all_readable g' s2) by (intros i Ui; apply G2; exact Ui).
    assert (B2 : all_within g' s2) by (intros i Ui; apply G2; exact Ui).
    destruct (extract_total g' s2 W' R2) as (x & Ex). rewrite Ex in H. cbn [bind] in H.
    rewrite (within_assertion g' s2 x W' B2 Ex) in H. injection H as <- <-. split; [exact (conj W' (conj A' (conj T' (conj R2 B2))))|].
    left. exists o. auto.
  - rewrite E in H. injection H as <- <-. split; [exact (conj W (conj A (conj T (conj Rd Wi))))|]. right. split; [reflexivity|].
    destruct Er as [->|Er]; [left; reflexivity|right]. f_equal.
    unfold all_edge_scores in Er. destruct (extract_total (w_graph w) (w_store w) W Rd) as (x & Ex). rewrite Ex in Er. cbn [bind] in Er.
    destruct (x_params x); [discriminate|]. destruct (w_hess w) as [hm|]; [|congruence]. destruct (negb _); [congruence|discriminate].
Qed.

Lemma calls_within : forall L ops w h w', lib_ok L -> NoDup ops -> calls L ops w h w' -> sound w ->
  (forall a c r b, In (a, c, r, b) h -> fair L ops a c) ->
  sound w' /\ forall a c r b, In (a, c, r, b) h -> sound b /\ r <> Err AssertionError.
Proof.
  intros L ops w h w' LO OND C; induction C as [w|w c w1 r h w'' E C IH]; intros S F; [split; [exact S|intros a c r b []]|].
  destruct (evolve_within L ops w c w1 r LO OND S (F w c r w1 (or_introl eq_refl)) E) as [S1 D].
  destruct (IH S1 (fun a c' r' b Hin => F a c' r' b (or_intror Hin))) as [S2 Al].
  split; [exact S2|]. intros a c' r' b [Eq|Hin]; [|eapply Al; exact Hin]. injection Eq as <- <- <- <-. split; [exact S1|].
  destruct D as [(o & -> & _)|(_ & [->| ->])]; discriminate.
Qed.
