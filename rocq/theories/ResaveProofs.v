(** Saving a loaded graph writes the same file (C14). *)
From Coq Require Import List Arith Bool Lia ZArith QArith Permutation.
From Verif Require Import Base GraphModel GraphSpec GraphProofs TopoProofs OperatorsModel OperatorsSpec OperatorsProofs EvolutionProofs
  TypingProofs EffectsProofs InitSpec InitProofs ParamsModel ParamsSpec EvolverModel EvolverSpec EvolveSpec ParamsProofs EvolveProofs BuildProofs
  SaveModel SaveSpec RebuildProofs SaveProofs LoadProofs.
Import ListNotations.
Local Open Scope nat_scope.

Lemma extract_spec : forall g s, wf g -> g_nodes g <> [] -> backed g s ->
  let en := names (length (g_nodes g) - 1) (map (fun e => e_model (e_dat e)) (edges_view g)) in
  extract_minimal g s = Ok (mkMin
    (combine en (map (fun e => (name_of g (e_src e), name_of g (e_dst e), e_key e)) (edges_view g)))
    (combine (names 0 (map (fun p => n_model (snd p)) (g_nodes g))) (map (fun p => lid s (n_model (snd p))) (g_nodes g)))
    (combine en (map (fun e => lid s (e_model (e_dat e))) (edges_view g)))).
Proof.
  intros g s W Ne B en. unfold extract_minimal. rewrite (match_cons (g_nodes g) _ _ Ne).
  rewrite (save_nodes_spec s (g_nodes g) 0) by (intros p; apply In_node_backed; exact B). cbn [bind fst snd].
  rewrite (save_edges_spec s _ (edges_view g) (length (g_nodes g) - 1)); [reflexivity| |].
  - intros e He; apply (In_edges_view g e W) in He. eapply In_edge_backed; eassumption.
  - intros e He. apply (In_edges_view g e W) in He. rewrite map_combine_l by (rewrite names_length, !map_length; reflexivity).
    destruct (wf_ends g W e He). split; apply node_ids_is_node; assumption.
Qed.

Lemma Forall2_map_eq : forall {A B C} (R : A -> B -> Prop) (h : A -> C) (k : B -> C) l l', (forall a b, R a b -> k b = h a) -> Forall2 R l l' -> map k l' = map h l.
Proof. intros A B C R h k l l' H F; induction F; simpl; [reflexivity|]. f_equal; auto. Qed.

Lemma names_ext : forall i cs cs', map ccls cs' = map ccls cs -> names i cs' = names i cs.
Proof. intros i cs cs' H. unfold names. rewrite H. rewrite <- (map_length ccls cs'), H, map_length. reflexivity. Qed.

Lemma Forall2_nth : forall {A B} (R : A -> B -> Prop) l l' i a, Forall2 R l l' -> nth_error l i = Some a -> exists b, nth_error l' i = Some b /\ R a b.
Proof.
  intros A B R l l' i a F; revert i; induction F; intros [|i] H'; try discriminate; simpl in *.
  - injection H' as ->. eauto.
  - apply IHF; exact H'.
Qed.

Definition kept (s s' : store) (c c' : comp) : Prop := ccls c' = ccls c /\ forall o ps, has s (cid c) o ps -> exists o', has s' (cid c') o' ps.

Lemma entries_same : forall {X Y} (names : list nick) (h : X -> comp) (k : Y -> comp) s s' l l', length names = length l ->
  (forall x, In x l -> exists o ps, has s (cid (h x)) o ps) -> Forall2 (fun x y => kept s s' (h x) (k y)) l l' ->
  same_entries s s' (combine names (map (fun x => lid s (h x)) l)) (combine names (map (fun y => lid s' (k y)) l')).
Proof.
  intros X Y names h k s s' l l' Ln B F. revert names Ln. induction F as [|x y l l' [_ H] F IH]; intros [|n names] Ln; try discriminate; simpl; [constructor|].
  constructor.
  - cbn [fst snd]. split; [reflexivity|]. destruct (B x (or_introl eq_refl)) as (o & ps & Ho). destruct (H o ps Ho) as (o' & Ho'). exists ps. split; eapply has_lid; eassumption.
  - apply IH; [intros z Hz; apply B; right; exact Hz|simpl in Ln; lia].
Qed.

Theorem resave : forall g s g' s' f, wf g -> wf g' -> g_nodes g <> [] -> backed g s ->
  nodes_match f (fun _ => kept s s') g g' -> edges_match f (kept s s') g g' ->
  exists m m', extract_minimal g s = Ok m /\ extract_minimal g' s' = Ok m' /\ same_file m s m' s'.
Proof.
  intros g s g' s' f W W' Ne B NM EM.
  assert (Ne' : g_nodes g' <> []) by (intros C; unfold nodes_match in NM; rewrite C in NM; inversion NM; congruence).
  assert (B' : backed g' s').
  { intros i (c & [n|i'] & Si & <-).
    - destruct Si as (d & Hd & <-). destruct (Forall2_In_r _ _ _ (n, d) NM Hd) as (p & Hp & _ & _ & Hx). destruct (In_node_backed g s p B Hp) as (o & ps & Ho).
      destruct (Hx o ps Ho) as (o' & Ho'). exists o', ps; exact Ho'.
    - destruct Si as (e & He & _ & <-). apply (In_edges_view g' e W') in He. destruct (Forall2_In_r _ _ _ e EM He) as (e0 & He0 & _ & _ & _ & Hx).
      apply (In_edges_view g e0 W) in He0. destruct (In_edge_backed g s e0 B He0) as (o & ps & Ho). destruct (Hx o ps Ho) as (o' & Ho'). exists o', ps; exact Ho'. }
  do 2 eexists. split; [apply (extract_spec g s W Ne B)|]. split; [apply (extract_spec g' s' W' Ne' B')|].
  assert (Ln : length (g_nodes g') = length (g_nodes g)) by (symmetry; eapply Forall2_len; exact NM).
  assert (N1 : names 0 (map (fun p => n_model (snd p)) (g_nodes g')) = names 0 (map (fun p => n_model (snd p)) (g_nodes g))).
  { apply names_ext. rewrite !map_map. eapply Forall2_map_eq; [|exact NM]. intros p p' (_ & H & _). exact H. }
  assert (N2 : names (length (g_nodes g') - 1) (map (fun e => e_model (e_dat e)) (edges_view g')) = names (length (g_nodes g) - 1) (map (fun e => e_model (e_dat e)) (edges_view g))).
  { rewrite Ln. apply names_ext. rewrite !map_map. eapply Forall2_map_eq; [|exact EM]. intros p p' (_ & _ & H & _). exact H. }
  assert (Nm : forall n, is_node g n -> name_of g' (f n) = name_of g n).
  { intros n (d & Hd). destruct (In_nth_error _ _ Hd) as (i & Hi). pose proof (name_of_nth g i (n, d) W Hi) as E1. cbn [fst snd] in E1. rewrite E1.
    destruct (Forall2_nth _ _ _ i (n, d) NM Hi) as (p' & Hi' & X1 & X2 & _). cbn [fst snd] in X1, X2. rewrite <- X1, (name_of_nth g' i p' W' Hi'), X2. reflexivity. }
  rewrite N1, N2. split; [|split]; cbn [m_np m_ep m_adj].
  - apply (entries_same _ (fun p => n_model (snd p)) (fun p => n_model (snd p))).
    + rewrite names_length, map_length. reflexivity.
    + intros p; apply In_node_backed; exact B.
    + eapply Forall2_imp; [|exact NM]. intros p p' (_ & H). exact H.
  - apply (entries_same _ (fun e => e_model (e_dat e)) (fun e => e_model (e_dat e))).
    + rewrite names_length, map_length. reflexivity.
    + intros e He; apply (In_edges_view g e W) in He. eapply In_edge_backed; eassumption.
    + eapply Forall2_imp; [|exact EM]. intros p p' (_ & _ & H). exact H.
  - assert (L : length (names (length (g_nodes g) - 1) (map (fun e => e_model (e_dat e)) (edges_view g))) = length (edges_view g)) by (rewrite names_length, map_length; reflexivity).
    revert L. generalize (names (length (g_nodes g) - 1) (map (fun e => e_model (e_dat e)) (edges_view g))) as en.
    assert (In_v : forall e, In e (edges_view g) -> In e (g_edges g)) by (intros e; apply (In_edges_view g e W)).
    unfold edges_match in EM. clear -EM In_v Nm W. revert In_v. induction EM as [|e e' l l' (E1 & E2 & _) F IH]; intros In_v [|n en] L; try discriminate; simpl; constructor.
    + cbn [fst snd]. split; [reflexivity|]. destruct (wf_ends g W e (In_v e (or_introl eq_refl))) as [Ns Nd]. rewrite E1, E2, (Nm _ Ns), (Nm _ Nd). reflexivity.
    + apply IH; [intros x Hx; apply In_v; right; exact Hx|simpl in L; lia].
Qed.

Corollary save_load_save : forall g s next, savable g s -> g_nodes g <> [] -> loadable g -> unused_from next s ->
  exists g' s' m m', save_and_load g s next = Ok (g', s') /\ extract_minimal g s = Ok m /\ extract_minimal g' s' = Ok m' /\ same_file m s m' s'.
Proof.
  intros g s next (W & A & Gr & Cn & B & Sz) Ne Ld U. destruct (save_load_gen g s next W A Gr Cn Ne B Ld U) as (f & _ & _ & H & _).
  destruct (H Sz) as (g' & s' & E & W' & _ & _ & _ & NM & EM & _).
  destruct (resave g s g' s' f W W' Ne B) as (m & m' & X1 & X2 & X3).
  - eapply Forall2_imp; [|exact NM]. intros p p' (X1 & X2 & X3 & X4). split; [exact X1|]. split; [exact X2|]. intros o ps Ho. destruct (X4 o ps Ho) as (o' & Ho' & _). exists o'; exact Ho'.
  - eapply Forall2_imp; [|exact EM]. intros p p' (X1 & X1' & X2 & X3 & X4). split; [exact X1|]. split; [exact X1'|]. split; [exact X2|]. intros o ps Ho. destruct (X4 o ps Ho) as (o' & Ho' & _). exists o'; exact Ho'.
  - exists g', s', m, m'. auto.
Qed.
