(** C80: what the interactive viewer shows of a loaded graph. *)
From Coq Require Import List Arith Bool ZArith QArith Reals Qreals Lra Lia Permutation String.
From Verif Require Import Base GraphModel GraphSpec GraphProofs InitProofs OperatorsModel OperatorsSpec ParamsModel ParamsSpec EvolverModel EvolverSpec EvolveSpec SaveModel SaveSpec SaveProofs SessionSaveProofs SaveProperties LayoutModel LayoutSpec
  PropagateModel Complex ArrayModel ComponentModel OpticsModel OpticsSpec FlowSpec FlowProofs OpticsSessionProofs TransformModel TransformSpec EvolutionExamples EvolverExamples LayoutProperties OpticsProperties TransformProperties ViewerModel ViewerSpec ViewerProofs.
Import ListNotations.
Local Open Scope R_scope.

(* loading succeeds unless all heights coincide, and the drawing is faithful and inside the frame *)
Theorem C80_drawing : forall enum rand st g s, (forall l, Permutation (enum l) l) -> wf g -> acyclic g -> renumbered g -> backed g st -> g_edges g <> [] ->
  no_input g s -> (forall n, no_input g n -> n = s) ->
  exists pos, (forall fuel, (List.length (g_nodes g) < fuel)%nat -> optical_system_layout enum rand g fuel = Ok pos) /\
    (~ uneven pos -> forall fuel, (List.length (g_nodes g) < fuel)%nat -> load_view enum rand fuel st g = Err ZeroDivisionError) /\
    (uneven pos -> exists v, (forall fuel, (List.length (g_nodes g) < fuel)%nat -> load_view enum rand fuel st g = Ok v) /\
      NoDup (map fst (v_layout v)) /\ (forall n, In n (map fst (v_layout v)) <-> is_node g n) /\
      (forall n p, placed_at (v_layout v) n p -> in_frame p) /\
      (exists y, placed_at (v_layout v) s (-1, y)) /\ (exists n y, placed_at (v_layout v) n (1, y)) /\
      (exists n x, placed_at (v_layout v) n (x, -1)) /\ (exists n x, placed_at (v_layout v) n (x, 1)) /\
      List.length (v_curves v) = List.length (edges_view g) /\
      (forall i e c, nth_error (edges_view g) i = Some e -> nth_error (v_curves v) i = Some c ->
         exists a b, placed_at (v_layout v) (e_src e) a /\ placed_at (v_layout v) (e_dst e) b /\ fst a < fst b /\ line_between a b c) /\
      (forall i j e f c d, nth_error (edges_view g) i = Some e -> nth_error (edges_view g) j = Some f -> e <> f -> e_src e = e_src f -> e_dst e = e_dst f ->
         nth_error (v_curves v) i = Some c -> nth_error (v_curves v) j = Some d -> apart c d) /\
      v_nodes v = combine (map fst (g_nodes g)) (node_names g) /\
      v_edges v = combine (map (fun e => (e_src e, e_dst e)) (edges_view g)) (edge_names g) /\
      table_edge_data st g = Ok (v_table v)).
Proof. exact drawing. Qed.
Print Assumptions C80_drawing.

(* more than one source: the viewer hangs *)
Theorem C80_hangs : forall enum rand st g a b, (forall l, Permutation (enum l) l) -> wf g -> acyclic g -> no_input g a -> no_input g b -> a <> b ->
  forall fuel, load_view enum rand fuel st g = Err OutOfFuel.
Proof.
  intros enum rand st g a b P W A Ha Hb D fuel. pose proof (proj1 (proj2 (LayoutProofs.layout_exact enum rand g P W A)) (ex_intro _ a (ex_intro _ b (conj Ha (conj Hb D)))) fuel) as E.
  unfold load_view. rewrite E. reflexivity.
Qed.
Print Assumptions C80_hangs.

(* the names: acronym and number of earlier components of the class; unique unless both delay lines occur *)
Theorem C80_names : forall g,
  List.length (node_names g) = List.length (g_nodes g) /\ List.length (edge_names g) = List.length (edges_view g) /\
  (forall i c, nth_error (classes g) i = Some c -> exists digits,
     nth_error (node_names g ++ edge_names g) i = Some (acronym c ++ DecimalString.NilEmpty.string_of_uint digits)%string /\ Nat.of_uint digits = occurrences c (firstn i (classes g))) /\
  (NoDup (node_names g ++ edge_names g) <-> ~ (In DelayLine (classes g) /\ In IntegratedDelayLine (classes g))).
Proof.
  intros g. split; [apply node_names_length|]. split; [apply edge_names_length|].
  assert (E : node_names g ++ edge_names g = number_components (fun _ => 0%nat) (classes g)) by apply firstn_skipn.
  split; [|rewrite E; apply numbered_distinct].
  intros i c H. exists (Nat.to_uint (occurrences c (firstn i (classes g)))). split; [|apply DecimalNat.Unsigned.of_to]. rewrite E, numbered_nth, H. reflexivity.
Qed.
Print Assumptions C80_names.

(* the table of a selection: the parameters of the selected connections in that order, in rows that belong together *)
Theorem C80_table : forall st g, wf g -> complete g st -> exists table, table_edge_data st g = Ok table /\ List.length table = List.length (edges_view g) /\
  (forall sel, (forall i, In i sel -> (i < List.length (edges_view g))%nat) -> exists t, update_table_data table sel = Ok t /\ columns_agree t /\
     exists es names, Forall2 (fun i e => nth_error (edges_view g) i = Some e) sel es /\ Forall2 (fun i m => nth_error (edge_names g) i = Some m) sel names /\
       Ok (t_parameters t) = bind (map_res (fun e => get_params st (cid (e_model (e_dat e)))) es) (fun ps => Ok (List.concat ps)) /\
       t_names t = flat_map (fun e => map (fun k => (ccls (e_model (e_dat e)), k)) (seq 0 (List.length (sp_def (spec_of (ccls (e_model (e_dat e)))))))) es /\
       t_model t = flat_map (fun p => repeat (snd p) (List.length (sp_def (spec_of (ccls (e_model (e_dat (fst p)))))))) (combine es names)) /\
  (forall sel, (exists i, In i sel /\ (List.length (edges_view g) <= i)%nat) -> update_table_data table sel = Err KeyError).
Proof.
  intros st g W Cp.
  assert (T : exists table, table_edge_data st g = Ok table).
  { apply map_res_ok. intros (e, name) H. apply in_combine_l in H. apply (In_edges_view g e W) in H. destruct (Cp e H) as (o & ps & Hh & _). eexists. exact (entry_of st e name o ps Hh). }
  destruct T as (table & Et). exists table. split; [exact Et|]. pose proof (map_res_nth _ _ _ Et) as F.
  assert (L : List.length table = List.length (edges_view g)) by (rewrite <- (Forall2_len _ _ _ F), combine_length, edge_names_length; lia).
  split; [exact L|]. split.
  - intros sel Hs. destruct (update_ok table sel) as (rows & Fr & Eu); [intros i Hi; rewrite L; auto|]. eexists. split; [exact Eu|].
    assert (K : exists es names pss, Forall2 (fun i e => nth_error (edges_view g) i = Some e) sel es /\ Forall2 (fun i m => nth_error (edge_names g) i = Some m) sel names /\
      map_res (fun e => get_params st (cid (e_model (e_dat e)))) es = Ok pss /\
      flat_map t_parameters rows = List.concat pss /\
      flat_map t_names rows = flat_map (fun e => map (fun k => (ccls (e_model (e_dat e)), k)) (seq 0 (List.length (sp_def (spec_of (ccls (e_model (e_dat e)))))))) es /\
      flat_map t_model rows = flat_map (fun p => repeat (snd p) (List.length (sp_def (spec_of (ccls (e_model (e_dat (fst p)))))))) (combine es names) /\
      forall r, In r rows -> columns_agree r).
    { clear Eu Hs. induction Fr as [|i r sel rows Hr Fr IH].
      - exists [], [], []. split; [constructor|]. split; [constructor|]. repeat (split; [reflexivity|]). intros r [].
      - destruct IH as (es & names & pss & F1 & F2 & M & P1 & P2 & P3 & Ca). destruct (Forall2_nth_r _ _ _ _ _ F Hr) as ((e & m) & En & Ev). rewrite combine_nth_error in En.
        destruct (nth_error (edges_view g) i) as [e'|] eqn:Ee; [|discriminate]. destruct (nth_error (edge_names g) i) as [m'|] eqn:Em; [|discriminate]. injection En as -> ->. cbn [fst snd] in Ev.
        assert (He : In e (g_edges g)) by (apply (In_edges_view g e W); eapply nth_error_In; exact Ee). destruct (Cp e He) as (o & ps & Hh & Lp).
        rewrite (entry_of st e m o ps Hh) in Ev. injection Ev as <-.
        assert (Sd : List.length (sp_def (spec_of (ccls (e_model (e_dat e))))) = Z.to_nat (sp_num (spec_of (ccls (e_model (e_dat e)))))) by (destruct (ccls (e_model (e_dat e))); reflexivity).
        exists (e :: es), (m :: names), (ps :: pss). split; [constructor; assumption|]. split; [constructor; assumption|].
        split. { cbn. rewrite (has_params _ _ _ _ Hh). cbn [bind]. rewrite M. reflexivity. }
        cbn [flat_map t_parameters t_names t_model List.concat combine fst snd]. split; [now rewrite P1|]. split; [now rewrite P2, Sd, names_complete|]. split; [now rewrite P3, Sd|].
        intros r [<-|Hr']; [|now apply Ca]. unfold columns_agree. cbn. rewrite map_length, seq_length, repeat_length, names_complete. auto. }
    destruct K as (es & names & pss & F1 & F2 & M & P1 & P2 & P3 & Ca). split.
    + unfold columns_agree. cbn. split; apply flat_map_len; intros r Hr; apply (Ca r Hr).
    + exists es, names. split; [exact F1|]. split; [exact F2|]. cbn. rewrite M. cbn. rewrite P1. auto.
  - intros sel (i & Hi & Li). apply update_err. exists i. rewrite L. auto.
Qed.
Print Assumptions C80_table.

(* after any session, selecting connections shows exactly their lines and their rows *)
Theorem C80_selection : forall es new, offered 0 (es ++ [Selects new]) ->
  (forall i, In i (p_visible (session (es ++ [Selects new]))) <-> In i new /\ load_worked es = true) /\
  update_table_data (p_table (session es)) new = Ok (p_rows (session (es ++ [Selects new]))).
Proof.
  intros es new O. destruct (offered_app _ _ _ O) as (O' & Oe). destruct (session_good es O') as (I1 & I2 & I3).
  destruct (update_ok (p_table (session es)) new) as (rows & F & E); [intros i Hi; rewrite I1; exact (Oe i Hi)|].
  unfold session. rewrite fold_left_app. cbn [fold_left]. fold (session es). split.
  - intros i. rewrite (selects_visible _ _ _ i E I3), I2. split; [tauto|]. intros (H & K). split; [exact H|]. split; [exact K|exact (Oe i H)].
  - cbn [step]. rewrite E. reflexivity.
Qed.
Print Assumptions C80_selection.

(* the transform panels stay empty *)
Theorem C80_transforms : forall st p g src old T sv, wf g -> acyclic g -> distinct_objects g -> (0 < n_samples p)%nat ->
  simulate_recording false st p g src no_transforms old = (T, sv, Ok tt) -> forall e, In e (g_edges g) -> transform_panels T e = ([], []).
Proof.
  intros st p g src old T sv W A D P E e He. destruct (C78_cleared st p g src no_transforms old T sv W A D P E) as (K & _). unfold transform_panels. rewrite (K e He). now destruct (clearing _).
Qed.
Print Assumptions C80_transforms.

(* a saved graph with one source meets what C80_drawing and C80_table ask of a loaded graph *)
Theorem C80_loaded : forall g st next s, savable g st -> loadable g -> unused_from next st -> g_edges g <> [] -> complete g st -> no_input g s -> (forall n, no_input g n -> n = s) ->
  exists g' st' s', save_and_load g st next = Ok (g', st') /\ wf g' /\ acyclic g' /\ renumbered g' /\ backed g' st' /\ g_edges g' <> [] /\ complete g' st' /\ no_input g' s' /\ (forall n, no_input g' n -> n = s').
Proof.
  intros g st next s (W & A & Gr & Cn & B & Sz) Lo Un NE Cp Hs Us.
  assert (Nn : g_nodes g <> []) by (intros E; destruct Hs as ((d & Hd) & _); rewrite E in Hd; destruct Hd).
  destruct (C14_round_trip g st next W A Gr Cn Nn B Lo Un) as (f & _ & Inj & K & _). destruct (K Sz) as (g' & st' & El & W' & A' & _ & R' & Nm & Em & _).
  assert (Nr : forall n', is_node g' n' -> exists n, is_node g n /\ n' = f n).
  { intros n' (d' & H'). destruct (Forall2_In_r _ _ _ _ Nm H') as ((n & d) & H & (E & _)). exists n. split; [exists d; exact H|exact E]. }
  assert (Nl : forall n, is_node g n -> is_node g' (f n)).
  { intros n (d & H). apply In_nth_error in H. destruct H as (i & H). destruct (Forall2_nth_l _ _ _ _ _ Nm H) as ((n' & d') & H' & (E & _)). cbn in E. subst n'. exists d'. eapply nth_error_In; exact H'. }
  assert (Er : forall e', In e' (g_edges g') -> exists e, In e (g_edges g) /\ e_src e' = f (e_src e) /\ e_dst e' = f (e_dst e) /\ edge_loaded st st' (e_model (e_dat e)) (e_model (e_dat e'))).
  { intros e' H. apply (In_edges_view g' e' W') in H. destruct (Forall2_In_r _ _ _ _ Em H) as (e & He & E). exists e. split; [now apply (In_edges_view g e W)|exact E]. }
  assert (Ell : forall e, In e (g_edges g) -> exists e', In e' (g_edges g') /\ e_dst e' = f (e_dst e)).
  { intros e H. apply (In_edges_view g e W) in H. apply In_nth_error in H. destruct H as (i & H). destruct (Forall2_nth_l _ _ _ _ _ Em H) as (e' & H' & (_ & E & _)). exists e'. split; [apply (In_edges_view g' e' W'); eapply nth_error_In; exact H'|exact E]. }
  exists g', st', (f s). split; [exact El|]. split; [exact W'|]. split; [exact A'|]. split; [exact R'|]. split.
  - intros i (c & pl & Hs' & <-). destruct pl as [n'|ei]; cbn in Hs'.
    + destruct Hs' as (d' & H' & Ec). destruct (Forall2_In_r _ _ _ _ Nm H') as ((n & d) & H & (_ & (_ & _ & L))). cbn [fst snd] in L.
      destruct (In_node_backed g st (n, d) B H) as (o & ps & Hh). destruct (L o ps Hh) as (o' & Hh' & _). exists o', ps. rewrite <- Ec. exact Hh'.
    + destruct Hs' as (e' & H' & _ & Ec). destruct (Er e' H') as (e & He & _ & _ & (_ & _ & L)). destruct (In_edge_backed g st e B He) as (o & ps & Hh). destruct (L o ps Hh) as (o' & Hh' & _). exists o', ps. rewrite <- Ec. exact Hh'.
  - split. { destruct (g_edges g) as [|e0 es] eqn:Eg; [congruence|]. destruct (Ell e0 (or_introl eq_refl)) as (e' & H' & _). intros E. rewrite E in H'. destruct H'. }
    split. { intros e' H'. destruct (Er e' H') as (e & He & _ & _ & (Ec & _ & L)). destruct (Cp e He) as (o & ps & Hh & Hl). destruct (L o ps Hh) as (o' & Hh' & _). exists o', ps. split; [exact Hh'|]. rewrite Ec. exact Hl. }
    split.
    + split; [apply Nl; apply Hs|]. intros e' H' E. destruct (Er e' H') as (e & He & _ & Ed & _). destruct Hs as (Hn & No). apply (No e He). apply Inj; [apply (wf_ends g W e He)|exact Hn|congruence].
    + intros n' (Hn' & No'). destruct (Nr n' Hn') as (n & Hn & ->). f_equal. apply Us. split; [exact Hn|]. intros e He Ed. destruct (Ell e He) as (e' & H' & E'). apply (No' e' H'). congruence.
Qed.
Print Assumptions C80_loaded.

(** ** Cases *)
Lemma furnished_backed g st : furnished g st -> backed g st.
Proof.
  intros F i (c & pl & Hs & <-). destruct pl as [n|ei]; cbn in Hs.
  - destruct (proj2 F n c Hs) as (o & ps & H & _). eauto.
  - destruct Hs as (e & He & _ & <-). destruct (proj1 F e He) as (o & ps & H & _). eauto.
Qed.
Lemma furnished_complete g st : furnished g st -> complete g st.
Proof.
  intros F e He. destruct (proj1 F e He) as (o & ps & H & (L & _)). exists o, ps. split; [exact H|]. rewrite L. destruct (ccls (e_model (e_dat e))); reflexivity.
Qed.
Lemma g0_renumbered : renumbered g0.
Proof.
  intros u v. replace (g_edges g0) with (g_edges g0) by reflexivity. let l := eval vm_compute in (g_edges g0) in change (g_edges g0) with l. cbn [filter e_src e_dst e_key map].
  destruct (Nat.eqb 0 u && Nat.eqb 1 v)%bool eqn:E1; destruct (Nat.eqb 1 u && Nat.eqb 2 v)%bool eqn:E2; destruct (Nat.eqb 2 u && Nat.eqb 3 v)%bool eqn:E3;
    try reflexivity; exfalso; apply andb_true_iff in E1, E2 || apply andb_true_iff in E1, E3 || apply andb_true_iff in E2, E3;
    repeat match goal with H : _ /\ _ |- _ => destruct H end; repeat match goal with H : Nat.eqb _ _ = true |- _ => apply Nat.eqb_eq in H end; congruence.
Qed.
Lemma g0_source : no_input g0 0 /\ forall n, no_input g0 n -> n = 0%nat.
Proof.
  split; [split; [eexists; left; reflexivity|]; intros e He Q; vm_compute in He; destruct He as [<-|[<-|[<-|[<-|[]]]]]; discriminate Q|].
  intros n ((d & Hd) & No). vm_compute in Hd. destruct Hd as [E|[E|[E|[E|[]]]]]; injection E as <- _; [reflexivity| | |]; exfalso.
  - eapply (No _ (or_introl eq_refl)). reflexivity.
  - eapply (No _ (or_intror (or_introl eq_refl))). reflexivity.
  - eapply (No _ (or_intror (or_intror (or_intror (or_introl eq_refl))))). reflexivity.
Qed.
(* laser, two modulators in parallel, detector: with the heights 0, 4, 8, 12 it is drawn; with one height for all it is not *)
Example C80_drawing_case : (exists v y, load_view (fun l => l) (fun i => inject_Z (Z.of_nat i)) 5 (w_store w0) g0 = Ok v /\
    placed_at (v_layout v) 0%nat (-1, y) /\ List.length (v_curves v) = 4%nat /\
    (exists c d, nth_error (v_curves v) 1 = Some c /\ nth_error (v_curves v) 2 = Some d /\ apart c d)) /\
  load_view (fun l => l) (fun i => 1%Q) 5 (w_store w0) g0 = Err ZeroDivisionError.
Proof.
  assert (Fu : furnished g0 (w_store w0)) by (rewrite <- w0_graph; exact (session_g0 w0 (ses_start _ _ _))).
  assert (Ne : g_edges g0 <> []) by (vm_compute; discriminate).
  assert (L5 : (List.length (g_nodes g0) < 5)%nat) by (vm_compute; lia).
  split.
  - destruct (C80_drawing (fun l => l) (fun i => inject_Z (Z.of_nat i)) (w_store w0) g0 0 (fun l => Permutation_refl l) g0_wf g0_acyclic g0_renumbered (furnished_backed _ _ Fu) Ne (proj1 g0_source) (proj2 g0_source))
      as (pos & Run & _ & Up).
    assert (Un : uneven pos).
    { specialize (Run 5%nat L5). vm_compute in Run. injection Run as <-. eexists _, _. split; [left; reflexivity|]. split; [right; left; reflexivity|]. vm_compute. discriminate. }
    destruct (Up Un) as (v & Ev & ND & Nodes & Fr & (ys & Sy) & _ & _ & _ & Lc & Cv & Ap & _). exists v, ys. split; [exact (Ev 5%nat L5)|]. split; [exact Sy|].
    assert (L4 : List.length (edges_view g0) = 4%nat) by (vm_compute; reflexivity). rewrite Lc, L4. split; [reflexivity|].
    destruct (nth_error (v_curves v) 1) as [c|] eqn:Ec; [|apply nth_error_None in Ec; lia]. destruct (nth_error (v_curves v) 2) as [d|] eqn:Ed; [|apply nth_error_None in Ed; lia].
    exists c, d. split; [reflexivity|]. split; [reflexivity|]. eapply (Ap 1%nat 2%nat); [vm_compute; reflexivity|vm_compute; reflexivity|discriminate|reflexivity|reflexivity|exact Ec|exact Ed].
  - destruct (C80_drawing (fun l => l) (fun i => 1%Q) (w_store w0) g0 0 (fun l => Permutation_refl l) g0_wf g0_acyclic g0_renumbered (furnished_backed _ _ Fu) Ne (proj1 g0_source) (proj2 g0_source))
      as (pos & Run & Fl & _).
    apply Fl; [|exact L5]. specialize (Run 5%nat L5). vm_compute in Run. injection Run as <-. intros (p & q & Hp & Hq & D). apply D.
    repeat (destruct Hp as [<-|Hp]; [repeat (destruct Hq as [<-|Hq]; [reflexivity|]); destruct Hq|]); destruct Hp.
Qed.
(* two delay lines of different classes share a name; two components of one class do not *)
Definition two_delays : list (eid * comp) :=
  [((0, 1, 0), mkComp 104 ContinuousWaveLaser false); ((1, 2, 0), mkComp 105 DelayLine false); ((1, 2, 1), mkComp 106 IntegratedDelayLine false); ((2, 3, 0), mkComp 107 Photodiode false)]%nat.
Example C80_names_case : node_names g0 = ["SRC0"; "BS0"; "BS1"; "SNK0"]%string /\ edge_names g0 = ["CW0"; "PM0"; "WS0"; "PD0"]%string /\
  match init_graph nodes0 two_delays with Some g => edge_names g | None => [] end = ["CW0"; "DL0"; "DL0"; "PD0"]%string /\
  ~ In IntegratedDelayLine (classes g0).
Proof. split; [vm_compute; reflexivity|]. split; [vm_compute; reflexivity|]. split; [vm_compute; reflexivity|]. vm_compute. intuition discriminate. Qed.
(* the table of the modulator of g0 has four rows, that of the laser and the modulator eight *)
Example C80_table_case : exists table t u, table_edge_data (w_store w0) g0 = Ok table /\ update_table_data table [1%nat] = Ok t /\ update_table_data table [0%nat; 1%nat] = Ok u /\
  t_model t = ["PM0"; "PM0"; "PM0"; "PM0"]%string /\ List.length (t_parameters u) = 8%nat /\ columns_agree u /\ update_table_data table [4%nat] = Err KeyError.
Proof.
  destruct (table_edge_data (w_store w0) g0) as [table|] eqn:E; [|vm_compute in E; discriminate]. vm_compute in E. injection E as <-.
  do 3 eexists. split; [reflexivity|]. split; [reflexivity|]. split; [reflexivity|]. split; [reflexivity|]. split; [reflexivity|]. split; [split; reflexivity|reflexivity].
Qed.
(* load, select two, select one of them, load again with the selection kept, select another *)
Example C80_selection_case : forall t0 t1, List.length t0 = 3%nat -> List.length t1 = 2%nat ->
  offered 0 [Loads t0; Selects [0; 2]; Selects [2]; Loads t1; Selects [1]]%nat /\
  (forall i, In i (p_visible (session [Loads t0; Selects [0; 2]; Selects [2]; Loads t1; Selects [1]]%nat)) <-> i = 1%nat) /\
  p_visible (session [Loads t0; Selects [0; 2]; Selects [2]; Loads t1]%nat) = [].
Proof.
  intros t0 t1 L0 L1. assert (O : offered 0 [Loads t0; Selects [0; 2]; Selects [2]; Loads t1; Selects [1]]%nat).
  { cbn. rewrite L0, L1. repeat split; intros i H; cbn in H; lia. }
  split; [exact O|]. split; [|reflexivity]. intros i.
  rewrite (proj1 (C80_selection [Loads t0; Selects [0; 2]; Selects [2]; Loads t1]%nat [1%nat] O) i). cbn. intuition.
Qed.
(* with recording the panel would not be empty *)
Example C80_transforms_case : exists e T sv T' sv', In e (g_edges (w_graph (chain_world PhaseModulator))) /\
  recorded false PhaseModulator no_transforms = (T, sv, Ok tt) /\ transform_panels T e = ([], []) /\
  recorded true PhaseModulator no_transforms = (T', sv', Ok tt) /\ transform_panels T' e <> ([], []).
Proof.
  assert (H : tried PhaseModulator) by (unfold tried; auto). destruct (chain_facts _ H) as (W & A & Ty & D & Fu). destruct (chain_edge _ H) as (e & He & Ei & Ec).
  destruct (chain_runs false PhaseModulator no_transforms H ltac:(discriminate)) as (T & sv & E). destruct (chain_runs true PhaseModulator no_transforms H ltac:(discriminate)) as (T' & sv' & E').
  exists e, T, sv, T', sv'. split; [exact He|]. split; [exact E|]. split; [exact (C80_transforms _ grid8 _ dark8 [] T sv W A D ltac:(cbn; lia) E e He)|]. split; [exact E'|].
  unfold recorded in E'. destruct (C78_contents _ grid8 _ dark8 0 _ _ _ _ W A Ty D Fu grid8_usable eq_refl grid8_bins (fun _ => ltac:(discriminate)) E') as ((val & V) & _).
  destruct (V e He) as (_ & ps & s & _ & _ & _ & _ & _ & Po). rewrite Ec in Po. destruct Po as (r & Er & _). unfold transform_panels. rewrite Er. cbn. discriminate.
Qed.
(* two sources: no drawing, however long one waits *)
Example C80_hangs_case : forall fuel, load_view (fun l => l) (fun i => inject_Z (Z.of_nat i)) fuel (mkStore [] []) twin = Err OutOfFuel.
Proof.
  intros fuel. destruct C21_case as (_ & _ & N0 & N1 & A & _). refine (C80_hangs _ _ _ twin 0 1 (fun l => Permutation_refl l) _ A N0 N1 _ fuel); [|discriminate].
  assert (Hn : NoDup (map fst [(0, mkComp 1 TerminalSource false); (1, mkComp 2 TerminalSource false); (2, mkComp 3 TerminalSink false)]%nat)) by (vm_compute; repeat constructor; simpl; intuition discriminate).
  exact (proj1 (init_graph_some _ [((0, 2, 0), mkComp 11 Impulse false); ((1, 2, 0), mkComp 12 Impulse false)]%nat twin Hn eq_refl)).
Qed.
(* the graph of w0, saved and loaded *)
Example C80_loaded_case : exists g' st' s', save_and_load g0 (w_store w0) 1000 = Ok (g', st') /\ renumbered g' /\ backed g' st' /\ no_input g' s' /\ (forall n, no_input g' n -> n = s') /\
  edge_names g' = ["CW0"; "PM0"; "WS0"; "PD0"]%string.
Proof.
  destruct (session_savable default_library evo_op_list nodes0 edges0 1 2 g0 w0 w0 default_lib_ok ops_nodup nodes0_nodup objects0_nodup g0_built g0_typed w0_built (ses_start _ _ _)) as (Sv & _). rewrite w0_graph in Sv.
  assert (Fu : furnished g0 (w_store w0)) by (rewrite <- w0_graph; exact (session_g0 w0 (ses_start _ _ _))).
  destruct (C80_loaded g0 (w_store w0) 1000 0 Sv) as (g' & st' & s' & E & _ & _ & R & B & _ & _ & N & U).
  - intros c H. vm_compute in H. repeat (destruct H as [<-|H]; [split; discriminate|]). destruct H.
  - intros i o H. apply assoc_In in H. vm_compute in H. repeat (destruct H as [H|H]; [injection H as <- _; apply Nat.ltb_lt; vm_compute; reflexivity|]). destruct H.
  - vm_compute. discriminate.
  - exact (furnished_complete _ _ Fu).
  - exact (proj1 g0_source).
  - exact (proj2 g0_source).
  - exists g', st', s'. repeat (split; [assumption|]). vm_compute in E. injection E as <- _. vm_compute. reflexivity.
Qed.
