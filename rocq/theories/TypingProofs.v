(** Component families (C03) and port maxima (C05) along evolution. *)
From Coq Require Import List Arith Bool Lia Relations Permutation.
From Verif Require Import GraphModel GraphSpec GraphProofs TopoProofs OperatorsModel OperatorsSpec
  OperatorsProofs EvolutionProofs.
Import ListNotations.

Definition fam (d : edata) : family := family_of (ccls (e_model d)).

Definition ty_triple (g : graph) (a b : node) (d : edata) : Prop :=
  (no_input g a -> fam d = SourceModel) /\
  (~ no_input g a -> no_output g b -> fam d = SinkModel) /\
  (~ no_input g a -> ~ no_output g b -> fam d = SinglePath).

Lemma typed_triple : forall g a b d, typed g -> In (a, b, d) (triples g) -> ty_triple g a b d.
Proof.
  intros g a b d [_ _ _ H1 H2 H3] H; apply In_triples in H; destruct H as (e & He & <- & <- & <-).
  repeat split; intros; unfold fam; auto.
Qed.

Lemma ty_triple_ext : forall g g' a b a' b' d,
  (no_input g' a' <-> no_input g a) -> (no_output g' b' <-> no_output g b) ->
  ty_triple g a b d -> ty_triple g' a' b' d.
Proof. unfold ty_triple; intros g g' a b a' b' d Ha Hb (H1 & H2 & H3); rewrite Ha, Hb; auto. Qed.

Lemma typed_of_triples : forall g,
  (forall n c, no_input g n -> model_at g n c -> ccls c = TerminalSource) ->
  (forall n c, ~ no_input g n -> no_output g n -> model_at g n c -> ccls c = TerminalSink) ->
  (forall n c, inner g n -> model_at g n c -> family_of (ccls c) = MultiPath) ->
  (forall a b d, In (a, b, d) (triples g) -> ty_triple g a b d) -> typed g.
Proof.
  intros g H1 H2 H3 H; constructor; try assumption; intros e He;
    destruct (H (e_src e) (e_dst e) (e_dat e)) as (A & B & C);
    try (apply In_triples; exists e; auto); unfold fam in *; auto.
Qed.

Lemma model_at_is_node : forall g n c, model_at g n c -> is_node g n.
Proof. intros g n c (d & H & _); exists d; exact H. Qed.

Lemma node_cls_model_at : forall g n c, wf g -> model_at g n c -> node_cls g n = Some (ccls c).
Proof.
  intros g n c W (d & H & <-); unfold node_cls. apply (node_data_iff g n d W) in H; rewrite H; reflexivity.
Qed.

Lemma is_node_model_at : forall g n, is_node g n -> exists c, model_at g n c.
Proof. intros g n (d & H); exists (n_model d), d; auto. Qed.

Lemma no_input_dec : forall g n, is_node g n -> {no_input g n} + {~ no_input g n}.
Proof.
  intros g n Hn; destruct (Nat.eq_dec (in_degree g n) 0) as [Z|Z].
  - left; apply no_input_iff; auto.
  - right; rewrite no_input_iff; tauto.
Qed.
Lemma no_output_dec : forall g n, is_node g n -> {no_output g n} + {~ no_output g n}.
Proof.
  intros g n Hn; destruct (Nat.eq_dec (out_degree g n) 0) as [Z|Z].
  - left; apply no_output_iff; auto.
  - right; rewrite no_output_iff; tauto.
Qed.

Lemma edge_src_not_no_output : forall g e, In e (g_edges g) -> ~ no_output g (e_src e).
Proof. intros g e He [_ H]; exact (H e He eq_refl). Qed.
Lemma edge_dst_not_no_input : forall g e, In e (g_edges g) -> ~ no_input g (e_dst e).
Proof. intros g e He [_ H]; exact (H e He eq_refl). Qed.

(* the class test of the swap operator agrees with the position in the graph *)
Lemma swap_models_family : forall L g e c, lib_ok L -> wf g -> typed g -> In e (g_edges g) ->
  In c (edge_swap_models L g (e_src e) (e_dst e)) ->
  (no_input g (e_src e) -> family_of c = SourceModel) /\
  (~ no_input g (e_src e) -> no_output g (e_dst e) -> family_of c = SinkModel) /\
  (~ no_input g (e_src e) -> ~ no_output g (e_dst e) -> family_of c = SinglePath).
Proof.
  intros L g e c LO W T He H.
  destruct (wf_ends g W e He) as [Ns Nd].
  destruct (is_node_model_at g _ Ns) as (cs & Ms); destruct (is_node_model_at g _ Nd) as (cd & Md).
  unfold edge_swap_models in H. rewrite (node_cls_model_at g _ cs W Ms), (node_cls_model_at g _ cd W Md) in H.
  destruct (no_input_dec g _ Ns) as [I|I].
  - rewrite (ty_source g T _ cs I Ms) in H. split; [intros _; apply (lib_source L LO); exact H|]. split; intros; contradiction.
  - assert (Hin : inner g (e_src e)) by (split; [exact Ns|split; [exact I|apply edge_src_not_no_output; exact He]]).
    pose proof (ty_inner g T _ cs Hin Ms) as F.
    split; [intros; contradiction|].
    assert (H' : In c (if match Some (ccls cd) with Some TerminalSink => true | _ => false end then sink_models L else edge_models L))
      by (destruct (ccls cs); try exact H; discriminate F).
    clear H. destruct (no_output_dec g _ Nd) as [O|O].
    + rewrite (ty_sink g T _ cd (edge_dst_not_no_input g e He) O Md) in H'.
      split; [intros _ _; apply (lib_sink L LO); exact H'|intros; contradiction].
    + assert (Hin' : inner g (e_dst e)) by (split; [exact Nd|split; [apply edge_dst_not_no_input; exact He|exact O]]).
      pose proof (ty_inner g T _ cd Hin' Md) as F'.
      split; [intros; contradiction|]. intros _ _; apply (lib_edge L LO).
      destruct (ccls cd); try exact H'; discriminate F'.
Qed.

Lemma effect_typed : forall L g o g', lib_ok L -> wf g -> acyclic g -> wf g' -> effect L g o g' -> typed g -> typed g'.
Proof.
  intros L g o g' LO W A W' H T.
  destruct (effect_terminals L g o g' W A W' H) as [T1 T2].
  pose proof (effect_terminal_model L g o g') as TM.
  apply typed_of_triples.
  - intros n c I M. rewrite T1 in I. apply (ty_source g T n c I). apply (TM n W A W' H (or_introl I) c); exact M.
  - intros n c I O M. rewrite T1 in I; rewrite T2 in O. apply (ty_sink g T n c I O). apply (TM n W A W' H (or_intror O) c); exact M.
  - intros n c [Hn [I O]] M. rewrite T1 in I; rewrite T2 in O.
    destruct H as
    [e nid nn ne lft g' He HI Fr _ Pne Cnn Pnn _ _ _ Gn Ge
    |a b ne o g' Na Nb Hab Oa Ob V Ix _ Pne _ Gn Ge
    |e du dv He _ _ Pe _ _ _ _ Hp
    |e n0 du dv save g' He Hn0 Iu Ov Pe Du Pu Dv Pv Np Sv Gn Gt _
    | |m d c' Dm Pm Im Om Cc _ Pc _|e c' He Pe _ _ Pc _].
    + destruct M as (d & M & <-). rewrite Gn in M. apply in_app_or in M; destruct M as [M|[M|[]]].
      * apply (ty_inner g T n); [split; [exists d; exact M|auto]|exists d; auto].
      * injection M as <- <-; simpl. apply (lib_node L LO); exact Cnn.
    + apply (ty_inner g T n).
      * split; [|auto]. apply (is_node_nodes g' g n Gn); exact Hn.
      * unfold model_at in *; rewrite Gn in M; exact M.
    + apply (ty_inner g T n); [split; [exact Hn|auto]|exact M].
    + destruct M as (d & M & <-). rewrite Gn in M.
      destruct (Nat.eq_dec n (e_src e)) as [->|Nn].
      * assert (Ed : d = save).
        { pose proof (acyclic_no_loop g e A He) as NL.
          apply (In_assoc _ _ _) in M; [|rewrite set_assoc_fst; apply NoDup_map_filter; exact (wf_nodes g W)].
          rewrite assoc_set_assoc, Nat.eqb_refl in M; [congruence|].
          apply In_fst_ex; exists du; apply filter_In; split; [apply node_data_In; exact Du|].
          simpl; apply negb_true_iff, Nat.eqb_neq; exact NL. }
        subst d. apply (ty_inner g T n0); [|exists save; split; [apply node_data_In; exact Sv|reflexivity]].
        destruct (wf_ends g W e He) as [Ns Nd].
        destruct Hn0 as [->| ->]; (split; [assumption|]).
        -- split; [rewrite no_input_iff; tauto|apply edge_src_not_no_output; exact He].
        -- split; [apply edge_dst_not_no_input; exact He|rewrite no_output_iff; tauto].
      * apply In_set_assoc_neq in M; [|exact Nn]. apply filter_In in M; destruct M as [M _].
        apply (ty_inner g T n); [split; [exists d; exact M|auto]|exists d; auto].
    + apply (ty_inner g T n); [split; [exact Hn|auto]|exact M].
    + destruct M as (x & M & <-). simpl in M.
      destruct (Nat.eq_dec n m) as [->|Nn].
      * assert (Ed : x = mkND c' (n_name d)).
        { apply (In_assoc _ _ _) in M; [|rewrite set_assoc_fst; exact (wf_nodes g W)].
          rewrite assoc_set_assoc, Nat.eqb_refl in M; [congruence|].
          apply In_fst_ex; exists d; apply node_data_In; exact Dm. }
        subst x; simpl. apply (lib_node L LO); exact Cc.
      * apply In_set_assoc_neq in M; [|exact Nn].
        apply (ty_inner g T n); [split; [exists x; exact M|auto]|exists x; auto].
    + apply (ty_inner g T n); [split; [exact Hn|auto]|exact M].
  - intros a b d Hin.
    assert (Old : forall x y dd, In (x, y, dd) (triples g) -> ty_triple g' x y dd).
    { intros x y dd Hx. apply (ty_triple_ext g g' x y x y); [apply T1|apply T2|]. apply typed_triple; assumption. }
    destruct H as
    [e nid nn ne lft g' He HI Fr Cne Pne Cnn Pnn _ _ _ Gn Ge
    |a0 b0 ne o g' Na Nb Hab Oa Ob V Ix Cne Pne _ Gn Ge
    |e du dv He _ _ Pe _ _ _ _ Hp
    |e n0 du dv save g' He Hn0 Iu Ov Pe Du Pu Dv Pv Np Sv Gn Gt _
    | |m dm c' Dm Pm Im Om Cc _ Pc _|e c' He Pe Cc _ Pc _].
    + assert (Hte : In (e_src e, e_dst e, e_dat e) (triples g)) by (apply in_map_iff; exists e; auto).
      pose proof (typed_triple g _ _ _ T Hte) as Te.
      assert (NIn : ~ no_input g nid) by (intros [Hx _]; contradiction).
      assert (NOn : ~ no_output g nid) by (intros [Hx _]; contradiction).
      assert (Fne : fam (fresh_edata ne) = SinglePath) by (unfold fam; simpl; apply (lib_edge L LO); exact Cne).
      apply (perm_In _ _ _ (Permutation_map triple Ge)) in Hin.
      destruct Hin as [E|[E|Hin]].
      * unfold triple in E; simpl in E; injection E as <- <- <-.
        destruct lft.
        -- unfold ty_triple; rewrite T1, T2. split; [intros Hx; exfalso; rewrite no_input_iff in Hx; tauto|].
           split; [intros; contradiction|intros; exact Fne].
        -- unfold ty_triple; rewrite T1, T2. destruct Te as (Te1 & _ & Te3). split; [exact Te1|].
           split; [intros; contradiction|]. intros Hx _. apply Te3; [exact Hx|]. rewrite no_output_iff; tauto.
      * unfold triple in E; simpl in E; injection E as <- <- <-.
        destruct lft.
        -- unfold ty_triple; rewrite T1, T2. destruct Te as (_ & Te2 & Te3).
           assert (Hs : ~ no_input g (e_src e)) by (rewrite no_input_iff; tauto).
           split; [intros; contradiction|]. split; intros _ Ho; auto.
        -- unfold ty_triple; rewrite T1, T2. split; [intros; contradiction|].
           split; [intros _ Hx; exfalso; rewrite no_output_iff in Hx; tauto|intros; exact Fne].
      * apply Old. apply in_map_iff in Hin; destruct Hin as (x & E & Hx). apply In_remove_edge in Hx.
        apply in_map_iff; exists x; tauto.
    + apply (perm_In _ _ _ (Permutation_map triple Ge)) in Hin.
      destruct Hin as [E|Hin]; [|apply Old; exact Hin].
      unfold triple in E; simpl in E; injection E as <- <- <-.
      unfold parallel_node_ok in Oa, Ob. rewrite !andb_true_iff, !negb_true_iff, !Nat.eqb_neq in Oa, Ob.
      assert (Fne : fam (fresh_edata ne) = SinglePath) by (unfold fam; simpl; apply (lib_edge L LO); exact Cne).
      unfold ty_triple; rewrite T1, T2, no_input_iff, no_output_iff. repeat split; intros; try exact Fne; exfalso; tauto.
    + apply Old. apply In_triples in Hin; destruct Hin as (x & Hx & E1 & E2 & E3). apply In_remove_edge in Hx.
      apply In_triples; exists x; tauto.
    + apply (perm_In _ _ _ Gt) in Hin. apply in_map_iff in Hin; destruct Hin as ([[x y] dd] & E & Hin).
      simpl in E; injection E as <- <- <-.
      assert (Hin' : In (x, y, dd) (triples g)).
      { apply In_triples in Hin; destruct Hin as (z & Hz & E1 & E2 & E3). apply In_remove_edge in Hz.
        apply In_triples; exists z; tauto. }
      pose proof (typed_triple g _ _ _ T Hin') as Tx.
      assert (Nu : ~ no_input g (e_src e) /\ ~ no_output g (e_src e)).
      { split; [rewrite no_input_iff; tauto|apply edge_src_not_no_output; exact He]. }
      assert (Nv : ~ no_input g (e_dst e) /\ ~ no_output g (e_dst e)).
      { split; [apply edge_dst_not_no_input; exact He|rewrite no_output_iff; tauto]. }
      apply (ty_triple_ext g g' x y); [| |exact Tx].
      * rewrite T1. unfold merge; destruct (Nat.eqb_spec x (e_dst e)) as [->|]; tauto.
      * rewrite T2. unfold merge; destruct (Nat.eqb_spec y (e_dst e)) as [->|]; tauto.
    + apply typed_triple; assumption.
    + apply Old; exact Hin.
    + apply (perm_In _ _ _ (Permutation_map triple (set_edge_data_perm g e _ W He))) in Hin.
      destruct Hin as [E|Hin].
      * unfold triple in E; simpl in E; injection E as <- <- <-.
        unfold ty_triple; rewrite T1, T2. unfold fam; simpl. apply (swap_models_family L g e); assumption.
      * apply Old. apply in_map_iff in Hin; destruct Hin as (x & E & Hx). apply In_remove_edge in Hx.
        apply in_map_iff; exists x; tauto.
Qed.

(** ** Port maxima *)

Lemma arrivals_perm : forall g g' n, Permutation (g_edges g) (g_edges g') -> arrivals g n = arrivals g' n.
Proof. intros; unfold arrivals; apply Permutation_length, filter_perm; assumption. Qed.

Lemma max_le_two : forall c, max_inputs c <= 2 /\ max_outputs c <= 2.
Proof. intros c; destruct c; cbv; lia. Qed.
Lemma max_multi : forall c, family_of c = MultiPath -> max_inputs c = 2 /\ max_outputs c = 2.
Proof. intros c H; unfold max_inputs, max_outputs; rewrite H; auto. Qed.
Lemma max_inputs_two : forall c, 1 < max_inputs c -> max_inputs c = 2 /\ max_outputs c = 2.
Proof. intros c; unfold max_inputs, max_outputs; destruct (family_of c); lia. Qed.

Lemma effect_ports : forall L g o g', lib_ok L -> wf g -> acyclic g -> wf g' -> effect L g o g' ->
  o <> Remove -> within_ports g -> within_ports g'.
Proof.
  intros L g o g' LO W A W' H NR P n c [Hn [I O]] M.
  destruct (effect_terminals L g o g' W A W' H) as [T1 T2].
  rewrite T1 in I; rewrite T2 in O.
  destruct H as
    [e nid nn ne lft g' He HI Fr Cne Pne Cnn Pnn _ _ _ Gn Ge
    |a0 b0 ne o g' Na Nb Hab Oa Ob V Ix Cne Pne _ Gn Ge
    |e du dv He _ _ Pe _ _ _ _ Hp
    |e n0 du dv save g' He Hn0 Iu Ov Pe Du Pu Dv Pv Np Sv Gn Gt _
    | |m dm c' Dm Pm Im Om Cc _ Pc _|e c' He Pe Cc _ Pc _]; try congruence.
  - assert (Ar : arrivals g' n = (if Nat.eqb nid n then 1 else 0) + (if Nat.eqb (e_dst e) n then 1 else 0) +
        length (filter (fun x => Nat.eqb (e_dst x) n) (g_edges (remove_edge g (e_id e))))).
    { unfold arrivals; rewrite (Permutation_length (filter_perm _ _ _ Ge)); cbn [filter e_dst].
      destruct (Nat.eqb nid n), (Nat.eqb (e_dst e) n); simpl; lia. }
    assert (De : departures g' n = (if Nat.eqb (e_src e) n then 1 else 0) + (if Nat.eqb nid n then 1 else 0) +
        length (filter (fun x => Nat.eqb (e_src x) n) (g_edges (remove_edge g (e_id e))))).
    { unfold departures; rewrite (Permutation_length (filter_perm _ _ _ Ge)); cbn [filter e_src].
      destruct (Nat.eqb nid n), (Nat.eqb (e_src e) n); simpl; lia. }
    assert (Ar0 : arrivals g n = (if Nat.eqb (e_dst e) n then 1 else 0) +
        length (filter (fun x => Nat.eqb (e_dst x) n) (g_edges (remove_edge g (e_id e))))).
    { unfold arrivals; rewrite (Permutation_length (filter_perm _ _ _ (remove_edge_perm g e W He))); cbn [filter e_dst].
      destruct (Nat.eqb (e_dst e) n); reflexivity. }
    assert (De0 : departures g n = (if Nat.eqb (e_src e) n then 1 else 0) +
        length (filter (fun x => Nat.eqb (e_src x) n) (g_edges (remove_edge g (e_id e))))).
    { unfold departures; rewrite (Permutation_length (filter_perm _ _ _ (remove_edge_perm g e W He))); cbn [filter e_src].
      destruct (Nat.eqb (e_src e) n); reflexivity. }
    rewrite Ar, De. destruct (Nat.eqb_spec nid n) as [<-|Nn].
    + assert (Z1 : arrivals g nid = 0).
      { apply (in_degree_zero g nid); intros x Hx E; apply Fr; rewrite <- E; apply (wf_ends g W x Hx). }
      assert (Z2 : departures g nid = 0).
      { apply (out_degree_zero g nid); intros x Hx E; apply Fr; rewrite <- E; apply (wf_ends g W x Hx). }
      destruct M as (d & M & <-). rewrite Gn in M. apply in_app_or in M; destruct M as [M|[M|[]]].
      * exfalso; apply Fr; exists d; exact M.
      * injection M as <-; cbn [n_model fresh_ndata]. destruct (max_multi (ccls nn) (lib_node L LO _ Cnn)); lia.
    + assert (Mg : model_at g n c).
      { destruct M as (d & M & E). rewrite Gn in M. apply in_app_or in M; destruct M as [M|[M|[]]]; [exists d; auto|congruence]. }
      destruct (P n c) as [P1 P2]; [split; [eapply model_at_is_node; exact Mg|auto]|exact Mg|]. lia.
  - assert (Mg : model_at g n c) by (unfold model_at in *; rewrite Gn in M; exact M).
    destruct (P n c) as [P1 P2]; [split; [eapply model_at_is_node; exact Mg|auto]|exact Mg|].
    assert (Ar : arrivals g' n = (if Nat.eqb b0 n then 1 else 0) + arrivals g n).
    { unfold arrivals; rewrite (Permutation_length (filter_perm _ _ _ Ge)); cbn [filter e_dst]. destruct (Nat.eqb b0 n); reflexivity. }
    assert (De : departures g' n = (if Nat.eqb a0 n then 1 else 0) + departures g n).
    { unfold departures; rewrite (Permutation_length (filter_perm _ _ _ Ge)); cbn [filter e_src]. destruct (Nat.eqb a0 n); reflexivity. }
    rewrite Ar, De.
    assert (Bound : forall m, parallel_node_ok g m = true -> m = n ->
              S (arrivals g n) <= max_inputs (ccls c) /\ S (departures g n) <= max_outputs (ccls c)).
    { intros m Om ->. unfold parallel_node_ok in Om. rewrite (node_cls_model_at g n c W Mg) in Om.
      rewrite !andb_true_iff, !negb_true_iff, !Nat.eqb_neq, !Nat.ltb_lt in Om.
      change (in_degree g n) with (arrivals g n) in Om; change (out_degree g n) with (departures g n) in Om.
      destruct Om as [[[O1 O2] _] [O4 O5]]. destruct (max_inputs_two (ccls c)); lia. }
    destruct (Nat.eqb_spec b0 n) as [Eb|Eb]; destruct (Nat.eqb_spec a0 n) as [Ea|Ea];
      try (destruct (Bound b0 Ob Eb)); try (destruct (Bound a0 Oa Ea)); try lia.
  - apply (P n c); [split; [exact Hn|auto]|exact M].
  - change (arrivals (set_node_data g m (mkND c' (n_name dm))) n) with (arrivals g n).
    change (departures (set_node_data g m (mkND c' (n_name dm))) n) with (departures g n).
    destruct M as (x & M & <-). simpl in M.
    assert (Ng : is_node g n).
    { rewrite <- node_ids_is_node in Hn |- *; unfold node_ids in *; simpl in Hn; rewrite set_assoc_fst in Hn; exact Hn. }
    destruct (Nat.eq_dec n m) as [->|Nn].
    + assert (Ed : x = mkND c' (n_name dm)).
      { apply (In_assoc _ _ _) in M; [|rewrite set_assoc_fst; exact (wf_nodes g W)].
        rewrite assoc_set_assoc, Nat.eqb_refl in M; [congruence|].
        apply In_fst_ex; exists dm; apply node_data_In; exact Dm. }
      subst x; simpl. destruct (max_multi _ (lib_node L LO _ Cc)) as [-> ->].
      assert (Mg : model_at g m (n_model dm)) by (exists dm; split; [apply node_data_In; exact Dm|reflexivity]).
      destruct (P m (n_model dm)) as [P1 P2]; [split; [exact Ng|auto]|exact Mg|].
      destruct (max_le_two (ccls (n_model dm))); lia.
    + apply In_set_assoc_neq in M; [|exact Nn]. apply (P n (n_model x)); [split; [exact Ng|auto]|exists x; auto].
  - assert (Ar : arrivals (set_edge_data g (e_id e) (mkED c' (e_name (e_dat e)))) n = arrivals g n).
    { unfold arrivals; rewrite (Permutation_length (filter_perm _ _ _ (set_edge_data_perm g e _ W He))).
      rewrite (Permutation_length (filter_perm _ _ _ (remove_edge_perm g e W He))). cbn [filter e_dst].
      destruct (Nat.eqb (e_dst e) n); reflexivity. }
    assert (De : departures (set_edge_data g (e_id e) (mkED c' (e_name (e_dat e)))) n = departures g n).
    { unfold departures; rewrite (Permutation_length (filter_perm _ _ _ (set_edge_data_perm g e _ W He))).
      rewrite (Permutation_length (filter_perm _ _ _ (remove_edge_perm g e W He))). cbn [filter e_src].
      destruct (Nat.eqb (e_src e) n); reflexivity. }
    rewrite Ar, De. apply (P n c); [split; [exact Hn|auto]|exact M].
Qed.

Lemma run_typed : forall L g os g', lib_ok L -> evo_run L g os g' -> wf g -> acyclic g -> typed g -> typed g'.
Proof.
  intros L g os g' LO R W A T; revert R W A T; apply run_invariant.
  intros h o h' W A W' T E; exact (effect_typed L h o h' LO W A W' E T).
Qed.

Lemma run_protected : forall L g os g', evo_run L g os g' -> wf g -> acyclic g ->
  Permutation (protected_components g') (protected_components g).
Proof.
  intros L g os g' R; induction R as [g|g o g' os g'' S _ IH]; intros W A; [apply Permutation_refl|].
  destruct (step_effect L g o g' W A S) as [W' E].
  pose proof (effect_acyclic L g o g' W A E) as A'.
  eapply Permutation_trans; [apply IH; assumption|]. exact (effect_protected L g o g' W A W' E).
Qed.

Lemma run_ports : forall L g os g', lib_ok L -> evo_run L g os g' -> wf g -> acyclic g ->
  ~ In Remove os -> within_ports g -> within_ports g'.
Proof.
  intros L g os g' LO R; induction R as [g|g o g' os g'' S _ IH]; intros W A NR P; [exact P|].
  destruct (step_effect L g o g' W A S) as [W' E].
  pose proof (effect_acyclic L g o g' W A E) as A'.
  apply IH; [exact W'|exact A'|intros H; apply NR; right; exact H|].
  apply (effect_ports L g o g' LO W A W' E); [intros ->; apply NR; left; reflexivity|exact P].
Qed.
