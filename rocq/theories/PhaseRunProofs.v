(** What evolution does to phase shifters and detectors that are protected. *)
From Coq Require Import List Arith Bool Lia Permutation.
From Verif Require Import Base GraphModel GraphSpec GraphProofs TopoProofs OperatorsModel OperatorsSpec OperatorsProofs EvolutionProofs TypingProofs PhaseSpec.
Import ListNotations.

Definition edge_components (g : graph) : list comp := map (fun e => e_model (e_dat e)) (g_edges g).
Lemma edge_components_triples : forall g, edge_components g = map (fun t => e_model (snd t)) (triples g).
Proof. intros g. unfold edge_components, triples. rewrite map_map. reflexivity. Qed.

(* where the components on the connections come from *)
Lemma effect_origin : forall L g o g' c, wf g -> effect L g o g' -> In c (edge_components g') ->
  In c (edge_components g) \/ In (ccls c) (edge_models L) \/
  exists e, In e (g_edges g) /\ cprot (e_model (e_dat e)) = false /\ In (ccls c) (edge_swap_models L g (e_src e) (e_dst e)).
Proof.
  intros L g o g' c W H Hc. destruct H as
    [e nid nn ne lft g' He HI Fr Ce Pne _ Pnn _ _ _ Gn Ge
    |a b ne o g' Na Nb Hab Oa Ob V I Ce Pne _ Gn Ge
    |e du dv He _ _ Pe _ _ _ _ Hp
    |e n0 du dv save g' He Hn Iu Ov Pe Du Pu Dv Pv Np Sv Gn Gt _
    | |m d c' Dm Pm Im Om _ _ Pc _|e c' He Pe Cs _ Pc _].
  - unfold edge_components in Hc. apply (Permutation_in c (Permutation_map (fun e => e_model (e_dat e)) Ge)) in Hc. cbn [map] in Hc.
    assert (R : forall x, In x (map (fun e => e_model (e_dat e)) (g_edges (remove_edge g (e_id e)))) -> In x (edge_components g)).
    { intros x Hx. apply in_map_iff in Hx as (y & <- & Hy). apply (in_map (fun e => e_model (e_dat e))). cbn [remove_edge g_edges] in Hy. apply filter_In in Hy. tauto. }
    destruct Hc as [<-|[<-|Hc]]; [destruct lft|destruct lft|left; apply R; exact Hc]; cbn [e_dat e_model fresh_edata];
      try (right; left; exact Ce); left; apply (in_map (fun e => e_model (e_dat e))); exact He.
  - unfold edge_components in Hc. apply (Permutation_in c (Permutation_map (fun e => e_model (e_dat e)) Ge)) in Hc. cbn [map] in Hc. destruct Hc as [<-|Hc]; [right; left; exact Ce|left; exact Hc].
  - left. apply in_map_iff in Hc as (y & <- & Hy). apply (in_map (fun e => e_model (e_dat e))). cbn [remove_edge g_edges] in Hy. apply filter_In in Hy. tauto.
  - left. rewrite edge_components_triples in Hc. apply (Permutation_in c (Permutation_map (fun t => e_model (snd t)) Gt)) in Hc. rewrite map_map in Hc. apply in_map_iff in Hc as (t & <- & Ht). unfold triples in Ht. apply in_map_iff in Ht as (y & <- & Hy).
    apply (in_map (fun e => e_model (e_dat e))). cbn [remove_edge g_edges] in Hy. apply filter_In in Hy. tauto.
  - left; exact Hc.
  - left; exact Hc.
  - apply in_map_iff in Hc as (y & <- & Hy). cbn [set_edge_data g_edges] in Hy. apply in_map_iff in Hy as (x & Ex & Hx). destruct (eid_eqb (e_id x) (e_id e)); subst y.
    + right; right. exists e. cbn [e_dat e_model]. auto.
    + left. apply (in_map (fun e => e_model (e_dat e))). exact Hx.
Qed.

(* a kind of components on connections: none is offered for insertion, and a swap makes one
   only out of another *)
Section Kind.
Variable L : library.
Variable K : cls -> bool.
Hypothesis offered : forall c, In c (edge_models L) -> K c = false.
Hypothesis swapped : forall g e c, wf g -> acyclic g -> typed g -> In e (g_edges g) -> In c (edge_swap_models L g (e_src e) (e_dst e)) -> K c = true -> K (ccls (e_model (e_dat e))) = true.
Hypothesis LO : lib_ok L.
Definition of_kind (g : graph) : list comp := filter (fun c => K (ccls c)) (edge_components g).
Definition guarded (g : graph) : Prop := forall c, In c (edge_components g) -> K (ccls c) = true -> cprot c = true.
Lemma run_guarded : forall g os g', evo_run L g os g' -> wf g -> acyclic g -> typed g -> guarded g -> guarded g' /\ typed g'.
Proof.
  intros g os g' R W A T G. apply (run_invariant L (fun g => guarded g /\ typed g)) with (g := g) (os := os); [|exact R|exact W|exact A|auto].
  clear - offered swapped LO. intros g o g' W A W' [G T] E. split; [|exact (effect_typed L g o g' LO W A W' E T)].
  intros c Hc Kc. destruct (effect_origin L g o g' c W E Hc) as [H|[H|(e & H1 & H2 & H3)]].
  - exact (G c H Kc).
  - rewrite (offered _ H) in Kc. discriminate.
  - pose proof (swapped g e (ccls c) W A T H1 H3 Kc) as Ke. rewrite (G (e_model (e_dat e))) in H2; [discriminate| |exact Ke]. apply (in_map (fun e => e_model (e_dat e))). exact H1.
Qed.
Hypothesis nodes_not : forall c, family_of c = MultiPath \/ c = TerminalSource \/ c = TerminalSink -> K c = false.
Lemma node_class : forall g n d, wf g -> typed g -> In (n, d) (g_nodes g) -> K (ccls (n_model d)) = false.
Proof.
  intros g n d W T H. assert (M : model_at g n (n_model d)) by (exists d; auto). assert (N : is_node g n) by (exists d; exact H). apply nodes_not.
  destruct (Nat.eq_dec (in_degree g n) 0) as [Di|Di].
  - right; left. apply (ty_source g T n); [apply no_input_iff; auto|exact M].
  - destruct (Nat.eq_dec (out_degree g n) 0) as [Do|Do].
    + right; right. apply (ty_sink g T n); [|apply no_output_iff; auto|exact M]. intros Q. apply no_input_iff in Q. tauto.
    + left. apply (ty_inner g T n); [|exact M]. split; [exact N|]. rewrite no_input_iff, no_output_iff. tauto.
Qed.
Lemma of_kind_protected : forall g, wf g -> typed g -> guarded g -> filter (fun c => K (ccls c)) (protected_components g) = of_kind g.
Proof.
  intros g W T G. unfold protected_components, components, of_kind. rewrite !filter_app.
  assert (N : filter (fun c => K (ccls c)) (filter cprot (map (fun p => n_model (snd p)) (g_nodes g))) = []).
  { assert (H : forall l, (forall p, In p l -> In p (g_nodes g)) -> filter (fun c => K (ccls c)) (filter cprot (map (fun p => n_model (snd p)) l)) = []); [|apply H; auto].
    induction l as [|[n d] l IH]; intros H; [reflexivity|]. cbn [map filter snd]. assert (E := node_class g n d W T (H _ (or_introl eq_refl))).
    destruct (cprot (n_model d)); cbn [filter]; rewrite ?E; apply IH; intros p Hp; apply H; right; exact Hp. }
  rewrite N. cbn [app]. unfold edge_components in *. unfold guarded, edge_components in G. revert G. generalize (map (fun e => e_model (e_dat e)) (g_edges g)). induction l as [|c l IH]; intros G; [reflexivity|]. cbn [filter].
  rewrite <- IH by (intros x Hx; apply G; right; exact Hx). destruct (K (ccls c)) eqn:Kc.
  - rewrite (G c (or_introl eq_refl) Kc). cbn [filter]. rewrite Kc. reflexivity.
  - destruct (cprot c); cbn [filter]; rewrite ?Kc; reflexivity.
Qed.
Lemma run_kind : forall g os g', evo_run L g os g' -> wf g -> acyclic g -> typed g -> guarded g -> Permutation (of_kind g') (of_kind g).
Proof.
  intros g os g' R W A T G. destruct (run_guarded g os g' R W A T G) as [G' T']. destruct (run_wf_acyclic L g os g' R W A) as [W' _].
  rewrite <- (of_kind_protected g W T G), <- (of_kind_protected g' W' T' G'). apply filter_perm. exact (run_protected L g os g' R W A).
Qed.
End Kind.

Definition is_shifter (c : cls) : bool := cls_eqb c PhaseShifter.
Definition is_detector (c : cls) : bool := match family_of c with SinkModel => true | _ => false end.
(* the library offers no phase shifter *)
Lemma shifter_swapped : forall L, ~ In PhaseShifter (edge_models L) -> lib_ok L -> forall g e c, wf g -> acyclic g -> typed g -> In e (g_edges g) -> In c (edge_swap_models L g (e_src e) (e_dst e)) -> is_shifter c = true -> is_shifter (ccls (e_model (e_dat e))) = true.
Proof.
  intros L N LO g e c W A T He Hc E. apply cls_eqb_eq in E. subst c. exfalso. unfold edge_swap_models in Hc.
  destruct (match node_cls g (e_src e) with Some TerminalSource => true | _ => false end); [apply (lib_source L LO) in Hc; discriminate Hc|].
  destruct (match node_cls g (e_dst e) with Some TerminalSink => true | _ => false end); [apply (lib_sink L LO) in Hc; discriminate Hc|]. exact (N Hc).
Qed.
Lemma detector_swapped : forall L, lib_ok L -> forall g e c, wf g -> acyclic g -> typed g -> In e (g_edges g) -> In c (edge_swap_models L g (e_src e) (e_dst e)) -> is_detector c = true -> is_detector (ccls (e_model (e_dat e))) = true.
Proof.
  intros L LO g e c W A T He Hc E. unfold edge_swap_models in Hc. unfold is_detector in *.
  destruct (node_data_ex g _ (proj1 (wf_ends g W e He))) as (du & Du). destruct (node_data_ex g _ (proj2 (wf_ends g W e He))) as (dv & Dv).
  unfold node_cls in Hc. rewrite Du, Dv in Hc. apply (node_data_iff g _ _ W) in Du, Dv.
  assert (Mu : model_at g (e_src e) (n_model du)) by (exists du; auto). assert (Mv : model_at g (e_dst e) (n_model dv)) by (exists dv; auto).
  destruct (match Some (ccls (n_model du)) with Some TerminalSource => true | _ => false end) eqn:Eu.
  { apply (lib_source L LO) in Hc. rewrite Hc in E. discriminate. }
  destruct (match Some (ccls (n_model dv)) with Some TerminalSink => true | _ => false end) eqn:Ev; [|apply (lib_edge L LO) in Hc; rewrite Hc in E; discriminate].
  assert (Ni : ~ no_input g (e_src e)) by (intros Q; rewrite (ty_source g T _ _ Q Mu) in Eu; discriminate).
  assert (No : no_output g (e_dst e)).
  { apply no_output_iff. split; [exact (proj2 (wf_ends g W e He))|]. destruct (Nat.eq_dec (out_degree g (e_dst e)) 0) as [Q|Q]; [exact Q|]. exfalso.
    assert (F : family_of (ccls (n_model dv)) = MultiPath).
    { apply (ty_inner g T (e_dst e)); [|exact Mv]. split; [exact (proj2 (wf_ends g W e He))|]. split; [intros [_ X]; exact (X e He eq_refl)|]. intros X. apply no_output_iff in X. tauto. }
    destruct (ccls (n_model dv)); discriminate. }
  rewrite (ty_edge_sink g T e He Ni No). reflexivity.
Qed.

Lemma effect_indirect : forall L g o g', wf g -> acyclic g -> wf g' -> effect L g o g' -> indirect g -> indirect g'.
Proof.
  intros L g o g' W A W' H D. destruct (effect_terminals L g o g' W A W' H) as [T1 T2]. intros x Hx Ni No. apply T1 in Ni. apply T2 in No.
  assert (K : exists y, In y (g_edges g) /\ e_src y = e_src x /\ e_dst y = e_dst x); [|destruct K as (y & Hy & E1 & E2); rewrite <- E1 in Ni; rewrite <- E2 in No; exact (D y Hy Ni No)].
  destruct H as
    [e nid nn ne lft g' He HI Fr Ce Pne _ Pnn _ _ _ Gn Ge
    |a b ne o g' Na Nb Hab Oa Ob V I Ce Pne _ Gn Ge
    |e du dv He _ _ Pe _ _ _ _ Hp
    |e n0 du dv save g' He Hn Iu Ov Pe Du Pu Dv Pv Np Sv Gn Gt _
    | |m d c' Dm Pm Im Om _ _ Pc _|e c' He Pe Cs _ Pc _].
  - apply (Permutation_in x Ge) in Hx. destruct Hx as [<-|[<-|Hx]]; cbn [e_src e_dst] in *.
    + exfalso. exact (Fr (proj1 No)).
    + exfalso. exact (Fr (proj1 Ni)).
    + exists x. cbn [remove_edge g_edges] in Hx. apply filter_In in Hx. tauto.
  - apply (Permutation_in x Ge) in Hx. destruct Hx as [<-|Hx]; [|exists x; auto]. cbn [e_src e_dst] in *. exfalso. apply no_input_iff in Ni. unfold parallel_node_ok in Oa. rewrite (proj2 Ni) in Oa. discriminate.
  - exists x. cbn [remove_edge g_edges] in Hx. apply filter_In in Hx. tauto.
  - assert (Ht : In (triple x) (triples g')) by (unfold triples; apply in_map; exact Hx).
    apply (Permutation_in _ Gt) in Ht. apply in_map_iff in Ht as (t & Et & Ht). unfold triples in Ht. apply in_map_iff in Ht as (y & <- & Hy). cbn [remove_edge g_edges] in Hy. apply filter_In in Hy as [Hy _].
    exists y. split; [exact Hy|]. unfold triple, redir in Et. injection Et as E1 E2 _. unfold merge in E1, E2.
    assert (N1 : e_src e <> e_src x) by (intros E; apply Iu; apply no_input_iff in Ni; rewrite E; tauto).
    assert (N2 : e_src e <> e_dst x) by (intros E; exact (proj2 No e He E)).
    destruct (Nat.eqb (e_src y) (e_dst e)); [contradiction|]. destruct (Nat.eqb (e_dst y) (e_dst e)); [contradiction|]. auto.
  - exists x; auto.
  - exists x; auto.
  - cbn [set_edge_data g_edges] in Hx. apply in_map_iff in Hx as (y & E & Hy). exists y. split; [exact Hy|]. destruct (eid_eqb (e_id y) (e_id e)); subst x; auto.
Qed.
Lemma run_indirect : forall L g os g', evo_run L g os g' -> wf g -> acyclic g -> indirect g -> indirect g'.
Proof. intros L g os g' R W A D. exact (run_invariant L indirect (fun g o g' W A W' D E => effect_indirect L g o g' W A W' E D) g os g' R W A D). Qed.
