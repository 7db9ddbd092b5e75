(** Runs of evolve_graph: identifiers, splitter reset, distinct objects, random_graph (C09, C11, C44, C45). *)
From Coq Require Import List Arith Bool Lia ZArith QArith Qabs Qround Lqa Permutation.
From Verif Require Import Base GraphModel GraphSpec GraphProofs TopoProofs OperatorsModel OperatorsSpec OperatorsProofs EvolutionProofs
  TypingProofs EffectsProofs ParamsModel ParamsSpec EvolverModel EvolverSpec EvolveSpec ParamsProofs MatrixProofs EvolverProofs HessianProofs
  ChoiceProofs EvolveProofs.
Import ListNotations.
Local Open Scope nat_scope.

(** ** Distinct objects stay distinct *)

Definition nids (l : list (node * ndata)) : list nat := map (fun p => cid (n_model (snd p))) l.
Definition eids (l : list (node * node * edata)) : list nat := map (fun t => cid (e_model (snd t))) l.

Lemma distinct_split : forall g, map cid (components g) = nids (g_nodes g) ++ eids (triples g).
Proof. intros g; unfold components, nids, eids, triples. rewrite map_app, !map_map. reflexivity. Qed.

Lemma distinct_used : forall g, map cid (components g) = used_ids g.
Proof. intros g; unfold components, used_ids. rewrite map_app, !map_map. reflexivity. Qed.

Lemma nids_perm : forall l l', Permutation l l' -> Permutation (nids l) (nids l').
Proof. intros; apply Permutation_map; assumption. Qed.
Lemma eids_perm : forall l l', Permutation l l' -> Permutation (eids l) (eids l').
Proof. intros; apply Permutation_map; assumption. Qed.

Definition replaced (old new : list nat) : Prop :=
  exists add drop kept, Permutation new (add ++ kept) /\ Permutation old (drop ++ kept) /\ NoDup add /\ forall x, In x add -> ~ In x old.

Lemma replaced_NoDup : forall old new, replaced old new -> NoDup old -> NoDup new.
Proof.
  intros old new (add & drop & kept & P1 & P2 & N & F) ND. apply (Permutation_NoDup (Permutation_sym P1)).
  apply (Permutation_NoDup P2) in ND. apply NoDup_app_intro; [exact N| |].
  - clear - ND. induction drop as [|x r IH]; [exact ND|]. simpl in ND. inversion ND; auto.
  - intros x Hx C. apply (F x Hx). apply (Permutation_in x (Permutation_sym P2)). apply in_or_app; right; exact C.
Qed.

Lemma effect_distinct : forall L g o g', wf g -> acyclic g -> wf g' -> effect L g o g' -> distinct_objects g -> distinct_objects g'.
Proof.
  intros L g o g' W A W' H D. unfold distinct_objects in *. apply (replaced_NoDup (map cid (components g))); [|exact D].
  assert (Un : forall i, ~ In i (used_ids g) -> ~ In i (map cid (components g))) by (intros i; rewrite distinct_used; tauto).
  assert (Rem : forall e, In e (g_edges g) -> Permutation (eids (triples g)) (cid (e_model (e_dat e)) :: eids (triples (remove_edge g (e_id e))))).
  { intros e He. eapply Permutation_trans; [apply eids_perm, Permutation_map; apply (remove_edge_perm g e W He)|]. apply Permutation_refl. }
  rewrite !distinct_split in *. destruct H as
    [e nid nn ne lft g' He HI Fr _ _ _ _ Ue Uu Ud Gn Ge
    |a b ne o g' Na Nb Hab Oa Ob V I _ _ Ue Gn Ge
    |e du dv He _ _ _ _ _ _ _ Hp
    |e n0 du dv save g' He Hn Iu Ov Pe Du Pu Dv Pv Np Sv Gn Gt _
    | |m d c' Dm Pm Im Om _ _ _ Uc|e c' He Pe _ _ _ Uc].
  - exists [cid nn; cid ne], [], (nids (g_nodes g) ++ eids (triples g)). split; [|split; [apply Permutation_refl|split]].
    + rewrite Gn. unfold nids; rewrite map_app; fold (nids (g_nodes g)). cbn [map snd fresh_ndata n_model].
      assert (Pe : Permutation (eids (triples g')) (cid ne :: eids (triples g))).
      { eapply Permutation_trans; [apply eids_perm, Permutation_map; exact Ge|].
        eapply Permutation_trans; [|constructor; apply Permutation_sym, (Rem e He)].
        destruct lft; cbn [map triple e_dat e_src e_dst eids snd fresh_edata e_model]; [apply Permutation_refl|apply perm_swap]. }
      eapply Permutation_trans; [apply Permutation_app; [apply Permutation_app_comm|exact Pe]|]. simpl.
      constructor. cbn [app]; apply Permutation_sym, Permutation_middle.
    + constructor; [intros [E|[]]; congruence|constructor; [intros []|constructor]].
    + intros x [<-|[<-|[]]]; apply Un; assumption.
  - exists [cid ne], [], (nids (g_nodes g) ++ eids (triples g)). split; [|split; [apply Permutation_refl|split]].
    + rewrite Gn. assert (Pe : Permutation (eids (triples g')) (cid ne :: eids (triples g))).
      { eapply Permutation_trans; [apply eids_perm, Permutation_map; exact Ge|]. apply Permutation_refl. }
      eapply Permutation_trans; [apply Permutation_app_head; exact Pe|]. cbn [app]; apply Permutation_sym, Permutation_middle.
    + constructor; [intros []|constructor].
    + intros x [<-|[]]; apply Un; assumption.
  - exists [], [cid (e_model (e_dat e))], (nids (g_nodes g) ++ eids (triples (remove_edge g (e_id e)))). split; [apply Permutation_refl|].
    split; [|split; [constructor|intros x []]]. eapply Permutation_trans; [apply Permutation_app_head, (Rem e He)|]. cbn [app]; apply Permutation_sym, Permutation_middle.
  - pose proof (acyclic_no_loop g e A He) as NL.
    assert (Sd : save = du \/ save = dv) by (destruct Hn as [->| ->]; [rewrite Du in Sv|rewrite Dv in Sv]; injection Sv as <-; auto).
    apply node_data_In in Du; apply node_data_In in Dv.
    pose proof (NoDup_filter_fst (g_nodes g) (e_dst e) dv (wf_nodes g W) Dv) as P1.
    assert (Hu : In (e_src e, du) (filter (fun p => negb (Nat.eqb (fst p) (e_dst e))) (g_nodes g))).
    { apply filter_In; split; [exact Du|]; simpl; apply negb_true_iff, Nat.eqb_neq; exact NL. }
    destruct (set_assoc_perm _ (e_src e) du save (NoDup_map_filter _ _ _ (wf_nodes g W)) Hu) as (r & P2 & P3).
    assert (Eg : Permutation (eids (triples g')) (eids (triples (remove_edge g (e_id e))))).
    { eapply Permutation_trans; [apply eids_perm; exact Gt|].
      unfold eids; rewrite map_map. rewrite (map_ext _ (fun t => cid (e_model (snd t)))); [apply Permutation_refl|intros [[x y] z]; reflexivity]. }
    exists [], [cid (e_model (e_dat e)); cid (n_model (if Nat.eqb n0 (e_src e) then dv else du))],
      (cid (n_model save) :: nids r ++ eids (triples (remove_edge g (e_id e)))).
    split; [|split; [|split; [constructor|intros x []]]].
    + rewrite Gn. simpl. eapply Permutation_trans; [apply Permutation_app; [apply nids_perm; exact P3|exact Eg]|]. apply Permutation_refl.
    + eapply Permutation_trans; [apply Permutation_app; [apply nids_perm; eapply Permutation_trans; [exact P1|constructor; exact P2]|apply (Rem e He)]|].
      eapply Permutation_trans; [apply Permutation_sym, Permutation_middle|]. simpl. constructor.
      destruct (Nat.eqb_spec n0 (e_src e)) as [E0|E0].
      * assert (Es : save = du) by (subst n0; apply (In_assoc _ _ _ (wf_nodes g W)) in Du; unfold node_data in Sv; congruence). subst save. apply Permutation_refl.
      * assert (Es : save = dv). { destruct Hn as [C|C]; [contradiction|]. subst n0. apply (In_assoc _ _ _ (wf_nodes g W)) in Dv; unfold node_data in Sv; congruence. }
        subst save. apply perm_swap.
  - exists [], [], (nids (g_nodes g) ++ eids (triples g)). split; [apply Permutation_refl|split; [apply Permutation_refl|split; [constructor|intros x []]]].
  - apply node_data_In in Dm. destruct (set_assoc_perm _ m d (mkND c' (n_name d)) (wf_nodes g W) Dm) as (r & P2 & P3).
    exists [cid c'], [cid (n_model d)], (nids r ++ eids (triples g)). split; [|split; [|split]].
    + eapply Permutation_trans; [apply Permutation_app_tail, nids_perm; exact P3|]. apply Permutation_refl.
    + eapply Permutation_trans; [apply Permutation_app_tail, nids_perm; exact P2|]. apply Permutation_refl.
    + constructor; [intros []|constructor].
    + intros x [<-|[]]; apply Un; assumption.
  - exists [cid c'], [cid (e_model (e_dat e))], (nids (g_nodes g) ++ eids (triples (remove_edge g (e_id e)))). split; [|split; [|split]].
    + eapply Permutation_trans; [apply Permutation_app_head, eids_perm, Permutation_map, (set_edge_data_perm g e _ W He)|]. 
      cbn [app]; apply Permutation_sym, Permutation_middle.
    + eapply Permutation_trans; [apply Permutation_app_head, (Rem e He)|]. cbn [app]; apply Permutation_sym, Permutation_middle.
    + constructor; [intros []|constructor].
    + intros x [<-|[]]; apply Un; assumption.
Qed.

(** ** Identifiers *)

Lemma calls_step : forall L ops w h w', calls L ops w h w' -> forall a c r b, In (a, c, r, b) h -> do_call L ops a c = (b, r).
Proof.
  intros L ops w h w' C; induction C as [w|w c w1 r h w'' E C IH]; intros a c0 r0 b H; [destruct H|].
  destruct H as [Eq|H]; [injection Eq as <- <- <- <-; exact E|eapply IH; exact H].
Qed.

Definition uuids (h : list (world * call * res op * world)) : list nat := map (fun x => ch_uuid (c_ch (snd (fst (fst x))))) h.

Lemma calls_cur : forall L ops w h w', calls L ops w h w' -> forall a c r b, In (a, c, r, b) h -> In (w_cur a) (w_cur w :: uuids h).
Proof.
  intros L ops w h w' C; induction C as [w|w c w1 r h w'' E C IH]; intros a c0 r0 b H; [destruct H|].
  destruct H as [Eq|H]; [injection Eq as <- <- <- <-; left; reflexivity|].
  specialize (IH a c0 r0 b H). destruct (evolve_ids L ops w c w1 r E) as [(o & _ & Ec & _)|(e & _ & Ec & _)]; rewrite Ec in IH; simpl; simpl in IH; tauto.
Qed.

(* the current identifier after a successful call is new *)
Lemma calls_fresh : forall L ops w h w', calls L ops w h w' -> NoDup (w_cur w :: uuids h) ->
  forall h1 a c o b h2, h = h1 ++ (a, c, Ok o, b) :: h2 ->
    w_parent b = w_cur a /\ w_mut b = Some o /\ w_cur b <> w_cur a /\ w_cur b <> w_cur w /\
    forall a' c' r' b', In (a', c', r', b') h1 -> w_cur b <> w_cur a'.
Proof.
  intros L ops w h w' C ND h1 a c o b h2 E.
  assert (In (a, c, Ok o, b) h) as Hin by (subst h; apply in_or_app; right; left; reflexivity).
  pose proof (calls_step L ops w h w' C a c (Ok o) b Hin) as St.
  destruct (evolve_ids L ops a c b (Ok o) St) as [(o' & Eo & E1 & E2 & E3)|(e & Ee & _)]; [|discriminate]. injection Eo as <-.
  split; [exact E2|]. split; [exact E3|].
  (* split the run at the entry *)
  assert (Sp : forall h1 w, calls L ops w (h1 ++ (a, c, Ok o, b) :: h2) w' -> exists wm, calls L ops w h1 wm /\ wm = a).
  { clear. induction h1 as [|x h1 IH]; intros w C; simpl in C; inversion C; subst.
    - eexists; split; [constructor|reflexivity].
    - match goal with H : calls _ _ _ (h1 ++ _) _ |- _ => destruct (IH _ H) as (wm & C1 & ->) end.
      eexists; split; [econstructor; eassumption|reflexivity]. }
  subst h. destruct (Sp h1 w C) as (wm & C1 & ->).
  assert (Ui : w_cur a <> w_cur b /\ forall i, In i (w_cur w :: uuids h1) -> i <> w_cur b).
  { assert (Nb : ~ In (w_cur b) (w_cur w :: uuids h1)).
    { rewrite E1. unfold uuids in *. rewrite map_app in ND. cbn [map fst snd] in ND. change (NoDup ((w_cur w :: map (fun x : world * call * res op * world => ch_uuid (c_ch (snd (fst (fst x))))) h1) ++ ch_uuid (c_ch c) :: map (fun x : world * call * res op * world => ch_uuid (c_ch (snd (fst (fst x))))) h2)) in ND.
      apply NoDup_remove_2 in ND. intros C0; apply ND. apply in_or_app; left; exact C0. }
    split; [|intros i Hi Ei; subst i; contradiction].
    intros Ei. apply Nb. rewrite <- Ei.
    clear - C1. induction C1 as [w|w c w1 r h w'' E C IH]; [left; reflexivity|].
    destruct (evolve_ids L ops w c w1 r E) as [(o & _ & Ec & _)|(e & _ & Ec & _)]; rewrite Ec in IH; simpl; simpl in IH; tauto. }
  destruct Ui as [Ua Ui]. split; [congruence|]. split; [intros X; apply (Ui (w_cur w)); [left; reflexivity|congruence]|].
  intros a' c' r' b' H' X. pose proof (calls_cur L ops w h1 a C1 a' c' r' b' H') as Hc. apply (Ui _ Hc). congruence.
Qed.

(** ** Splitters are reset by every successful call *)

Lemma evolve_resets : forall L ops w c w' o, lib_ok L -> NoDup ops -> sound w -> distinct_objects (w_graph w) -> fair L ops w c ->
  do_call L ops w c = (w', Ok o) ->
  distinct_objects (w_graph w') /\
  (forall n d, In (n, d) (g_nodes (w_graph w')) -> family_of (ccls (n_model d)) = MultiPath ->
     exists ob, has (w_store w') (cid (n_model d)) ob (split_default (pred (departures (w_graph w') n)))) /\
  (forall cm pl ob ps, sits (w_graph w) cm pl -> has (w_store w) (cid cm) ob ps ->
     (forall n d, In (n, d) (g_nodes (w_graph w')) -> family_of (ccls (n_model d)) = MultiPath -> cid (n_model d) <> cid cm) ->
     has (w_store w') (cid cm) ob ps).
Proof.
  intros L ops w c w' r LO OND (W & A & T & Rd & Wi) DO (U0 & U1 & Sh & Dr) H. unfold do_call in H. rewrite evolve_pick in H. cbv zeta in H.
  destruct (pick_cases L ops (w_graph w) (w_store w) (w_hess w) (ch_shuffle (c_ch c)) W A OND Sh (prepare (c_ev c) (c_gen c)) (ch_u (c_ch c)) U0 U1)
    as [(l & o & E & Ho & Of)|(e & E & Er)]; [|rewrite E in H; discriminate].
  specialize (Dr l o E). rewrite E in H. unfold offers, places in Of.
  destruct (possible_locations L o (w_graph w)) as [locs|] eqn:Pl; [|destruct Of].
  destruct (apply_op_total L o (w_graph w) l (ch_draws (c_ch c)) locs W Pl Of) as (g' & Ap). rewrite Ap in H.
  assert (St : evo_step L (w_graph w) o g') by (econstructor; eassumption).
  destruct (step_effect L _ o _ W A St) as [W' Ef]. pose proof (effect_acyclic L _ o _ W A Ef) as A'.
  pose proof (effect_typed L _ o _ LO W A W' Ef T) as T'.
  pose proof (effect_distinct L _ o _ W A W' Ef DO) as DO'.
  set (s1 := construct_drawn L o l (w_graph w) (ch_draws (c_ch c)) (w_store w)) in *.
  assert (G1 : forall i, used g' i -> good s1 i).
  { intros i Ui. eapply (constructed_good L o (w_graph w) l (ch_draws (c_ch c)) g'); try eassumption. intros j Uj; split; [apply Wi|apply Rd]; exact Uj. }
  destruct (update_good g' s1 W' A' T' G1) as (s2 & Eu & G2 & K & Rs). rewrite Eu in H.
  destruct (bind _ _) as [x|e]; [|discriminate]. injection H as <- <-. cbn [w_graph w_store].
  split; [exact DO'|]. split.
  - intros n d Hn F. destruct (Rs DO' n d Hn F) as (ob & Hh & _). exists ob; exact Hh.
  - intros cm pl ob ps Sx Hh N. apply K; [intros n d Hn F; apply (N n d Hn F)|].
    assert (Us : In (cid cm) (used_ids (w_graph w))) by (apply used_ids_In; exists cm, pl; auto).
    unfold s1. destruct o; simpl in *.
    + destruct Dr as (_ & _ & _ & _ & F1 & F2 & _). apply construct_keeps; [congruence|]. apply construct_keeps; [congruence|exact Hh].
    + destruct Dr as (_ & _ & F1). apply construct_keeps; [congruence|exact Hh].
    + exact Hh.
    + apply construct_keeps; [|exact Hh]. destruct l; try contradiction; destruct Dr as (_ & _ & F1); congruence.
Qed.

(** ** random_graph is a sequence of calls *)

Lemma random_graph_calls : forall L ops ev chs w n w' r, random_graph L ops ev w chs n = (w', r) ->
  exists h, calls L ops w h w' /\ length h <= length chs /\
    (forall i a c x b, nth_error h i = Some (a, c, x, b) ->
       c = mkCall ev (Some (inject_Z (Z.of_nat (n + i)))) (c_ch c) /\ nth_error chs i = Some (c_ch c)) /\
    ((r = Ok tt /\ length h = length chs /\ forall a c x b, In (a, c, x, b) h -> x = Err AssertionError \/ exists o, x = Ok o) \/
     (exists e h' a c, r = Err e /\ h = h' ++ [(a, c, Err e, w')] /\ e <> AssertionError)).
Proof.
  intros L ops ev chs; induction chs as [|ch chs IH]; intros w n w' r H; cbn [random_graph] in H.
  - injection H as <- <-. exists []. split; [constructor|]. split; [apply le_n|]. split; [intros i a c x b E; destruct i; discriminate|].
    left. split; [reflexivity|]. split; [reflexivity|intros a c x b []].
  - set (c := mkCall ev (Some (inject_Z (Z.of_nat n))) ch).
    destruct (evolve_graph L ops ev (Some (inject_Z (Z.of_nat n))) w ch) as [w1 r1] eqn:E.
    assert (Ec : do_call L ops w c = (w1, r1)) by exact E.
    assert (Go : r1 = Err AssertionError \/ (exists o, r1 = Ok o) -> random_graph L ops ev w1 chs (S n) = (w', r) ->
      exists h, calls L ops w h w' /\ length h <= length (ch :: chs) /\
    (forall i a c x b, nth_error h i = Some (a, c, x, b) ->
       c = mkCall ev (Some (inject_Z (Z.of_nat (n + i)))) (c_ch c) /\ nth_error (ch :: chs) i = Some (c_ch c)) /\
    ((r = Ok tt /\ length h = length (ch :: chs) /\ forall a c x b, In (a, c, x, b) h -> x = Err AssertionError \/ exists o, x = Ok o) \/
     (exists e h' a c, r = Err e /\ h = h' ++ [(a, c, Err e, w')] /\ e <> AssertionError))).
    { intros R1 H1. destruct (IH w1 (S n) w' r H1) as (h & C & Len & Ix & D). exists ((w, c, r1, w1) :: h).
      split; [econstructor; eassumption|]. split; [simpl; lia|]. split.
      - intros [|i] a c0 x b En; cbn [nth_error] in En.
        + injection En as <- <- <- <-. rewrite Nat.add_0_r. split; reflexivity.
        + destruct (Ix i a c0 x b En) as [I1 I2]. rewrite <- Nat.add_succ_comm. split; [exact I1|exact I2].
      - destruct D as [(-> & Le & Al)|(e & h' & a & c0 & -> & -> & Ne)].
        + left. split; [reflexivity|]. split; [simpl; lia|]. intros a c0 x b [Eq|Hin]; [injection Eq as <- <- <- <-; exact R1|eapply Al; exact Hin].
        + right. exists e, ((w, c, r1, w1) :: h'), a, c0. auto. }
    destruct r1 as [o|e]; [apply Go; [right; eexists; reflexivity|exact H]|].
    destruct e; try (injection H as <- <-; eexists [(w, c, Err _, w1)]; split; [econstructor; [exact Ec|constructor]|]; split; [simpl; lia|]; split;
      [intros [|[|i]] a c0 x b En; cbn [nth_error] in En; try discriminate; injection En as <- <- <- <-; rewrite Nat.add_0_r; split; reflexivity
      |right; eexists; exists [], w, c; repeat split; discriminate]).
    apply Go; [left; reflexivity|exact H].
Qed.
