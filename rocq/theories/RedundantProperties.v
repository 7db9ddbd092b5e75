(** C96: what two neighbouring fibres, delay lines or phase shifters do depends on their sum alone. *)
From Coq Require Import Reals Qreals List Arith Bool Lia Lra ZArith QArith.
From Verif Require Import Base GraphModel GraphSpec GraphProofs TopoProofs OperatorsModel OperatorsSpec OperatorsProofs EvolutionProofs TypingProofs InitProofs ParamsModel ParamsSpec EvolverModel EvolverSpec EvolveSpec BuildProofs
  PropagateModel PropagateSpec FlowSpec Complex ArrayModel ComponentModel ComponentSpec
  OpticsModel OpticsSpec OpticsProofs OpticsProperties EvolutionExamples EvolverExamples RedundantSpec RedundantProofs.
Import ListNotations.
Local Open Scope nat_scope.

Theorem C96_moved : forall st st' p g src n e f a b a' b' old old', wf g -> acyclic g -> typed g -> distinct_objects g -> furnished g st -> furnished g st' ->
  usable (n_samples p) (window_t p) -> length src = n_samples p -> bin_spans (n_samples p) (window_t p) n ->
  in_series g e f -> one_number (ccls (e_model (e_dat e))) -> ccls (e_model (e_dat f)) = ccls (e_model (e_dat e)) ->
  set_to st (e_model (e_dat e)) a -> set_to st (e_model (e_dat f)) b -> set_to st' (e_model (e_dat e)) a' -> set_to st' (e_model (e_dat f)) b' ->
  (a + b == a' + b')%Q -> same_but g st st' e f ->
  let before := simulate st p g src old in let after := simulate st' p g src old' in
  (snd before = Ok tt <-> snd after = Ok tt) /\
  (snd before = Ok tt -> forall pl, pl <> PEdge (e_src e, e_dst e, e_key e) -> saved (fst after) pl = saved (fst before) pl).
Proof.
  intros st st' p g src n e f a b a' b' old old' W A T D Fu Fu' U Ls Hn Se K Ke Sa Sb Sa' Sb' Sum Same before after.
  pose proof (moved_simulates st st' p g src n e f a b a' b' W A T D Fu Fu' U Ls Hn Se K Ke Sa Sb Sa' Sb' Sum Same old old') as H.
  assert (Same' : same_but g st' st e f) by (intros c Hc N1 N2 ps; symmetry; apply Same; assumption). apply Qeq_sym in Sum.
  pose proof (moved_simulates st' st p g src n e f a' b' a b W A T D Fu' Fu U Ls Hn Se K Ke Sa' Sb' Sa Sb Sum Same' old' old) as H'.
  split; [split; [apply H|apply H']|]. intros E. apply H. exact E.
Qed.
Print Assumptions C96_moved.

(* the system of build_redundant_system.py with fewer components after the fibres: laser, two fibres, detector *)
Definition fibre_nodes : list (node * comp) :=
  [(0, mkComp 200 TerminalSource false); (1, mkComp 201 VariablePowerSplitter false); (2, mkComp 202 VariablePowerSplitter false);
   (3, mkComp 203 VariablePowerSplitter false); (4, mkComp 204 TerminalSink false)].
Definition fibre_edges : list (eid * comp) :=
  [((0, 1, 0), mkComp 205 ContinuousWaveLaser false); ((1, 2, 0), mkComp 206 DispersiveFiber false);
   ((2, 3, 0), mkComp 207 DispersiveFiber false); ((3, 4, 0), mkComp 208 MeasurementDevice false)].
Definition fibre_graph : graph := Eval vm_compute in match init_graph fibre_nodes fibre_edges with Some g => g | None => empty_graph end.
Definition fibre_world : world := Eval vm_compute in the (new_world fibre_nodes fibre_edges 1 2).
Definition fibre_x : extracted := Eval vm_compute in match extract (w_graph fibre_world) (w_store fibre_world) with Ok x => x | Err _ => x_empty end.
(* the laser as it was, lengths l and m *)
Definition fibre_values (l m : Q) : list pval := [nth 0 (x_params fibre_x) (Num 0); Num l; Num m].
Definition fibre_set (l m : Q) : store :=
  match distribute (fibre_values l m) (x_models fibre_x) (x_index fibre_x) (w_store fibre_world) with Ok s => s | Err _ => w_store fibre_world end.
Definition halves : store := Eval vm_compute in fibre_set 1000 1000.
Definition second_only : store := Eval vm_compute in fibre_set 0 2000.

(* a kilometre and a kilometre, or all in the second fibre: the detector shows the same, and the simulation succeeds *)
Example C96_case : snd (simulate halves grid8 fibre_graph dark8 []) = Ok tt /\
  saved (fst (simulate second_only grid8 fibre_graph dark8 [])) (PNode 4) = saved (fst (simulate halves grid8 fibre_graph dark8 [])) (PNode 4) /\
  saved (fst (simulate second_only grid8 fibre_graph dark8 [])) (PNode 4) <> None.
Proof.
  assert (ND : NoDup (map fst fibre_nodes)) by (simpl; repeat constructor; simpl; intuition discriminate).
  assert (D : NoDup (map (fun p => cid (snd p)) fibre_nodes ++ map (fun p => cid (snd p)) fibre_edges)) by (simpl; repeat constructor; simpl; intuition discriminate).
  assert (I : init_graph fibre_nodes fibre_edges = Some fibre_graph) by (vm_compute; reflexivity).
  destruct (init_graph_some fibre_nodes fibre_edges fibre_graph ND I) as (W & A & _).
  assert (T : typed fibre_graph) by (apply typedb_typed; [exact W|vm_compute; reflexivity]).
  assert (N : new_world fibre_nodes fibre_edges 1 2 = Ok fibre_world) by (vm_compute; reflexivity).
  assert (Eg : w_graph fibre_world = fibre_graph) by (vm_compute; reflexivity).
  assert (Fu : forall l m s, in_bounds (fibre_values l m) (x_lo fibre_x) (x_hi fibre_x) ->
    distribute (fibre_values l m) (x_models fibre_x) (x_index fibre_x) (w_store fibre_world) = Ok s -> furnished fibre_graph s).
  { intros l m s B E. rewrite <- Eg. change (furnished (w_graph (with_store fibre_world s)) (w_store (with_store fibre_world s))).
    apply (C65_parameters default_library evo_op_list fibre_nodes fibre_edges 1 2 fibre_graph fibre_world _ default_lib_ok ops_nodup ND D I T N).
    apply (ses_write _ _ _ fibre_world fibre_x (fibre_values l m) s (ses_start _ _ _)); [vm_compute; reflexivity|exact B|exact E]. }
  assert (Bd : forall l m, (0 <= l)%Q -> (l <= 2000)%Q -> (0 <= m)%Q -> (m <= 2000)%Q -> in_bounds (fibre_values l m) (x_lo fibre_x) (x_hi fibre_x)).
  { intros l m L1 L2 M1 M2. split; [reflexivity|]. split; [reflexivity|]. intros k v lo hi H1 H2 H3. unfold fibre_values, fibre_x in H1, H2, H3. cbn [x_lo x_hi x_params nth] in H1, H2, H3.
    destruct k as [|[|[|k]]]; cbn [nth_error] in H1, H2, H3; [| | |destruct k; discriminate]; injection H1 as <-; injection H2 as <-; injection H3 as <-; eexists; eexists; eexists; (split; [reflexivity|]); (split; [reflexivity|]); (split; [reflexivity|]).
    - split; vm_compute; discriminate.
    - split; [exact L1|eapply Qle_trans; [exact L2|vm_compute; discriminate]].
    - split; [exact M1|eapply Qle_trans; [exact M2|vm_compute; discriminate]]. }
  assert (F1 : furnished fibre_graph halves) by (apply (Fu 1000 1000)%Q; [apply Bd; vm_compute; discriminate|vm_compute; reflexivity]).
  assert (F2 : furnished fibre_graph second_only) by (apply (Fu 0 2000)%Q; [apply Bd; vm_compute; discriminate|vm_compute; reflexivity]).
  assert (K1 : snd (simulate halves grid8 fibre_graph dark8 []) = Ok tt).
  { apply (C65_exact halves grid8 fibre_graph dark8 0 [] W A T F1 grid8_usable eq_refl grid8_bins). split; [apply single_feed_check; vm_compute; reflexivity|]. split.
    - intros (e & o & ps & v & He & Ec & _). vm_compute in He. destruct He as [<-|[<-|[<-|[<-|[]]]]]; discriminate Ec.
    - intros (e & He & Ec). vm_compute in He. destruct He as [<-|[<-|[<-|[<-|[]]]]]; discriminate Ec. }
  split; [exact K1|].
  set (e := nth 1 (g_edges fibre_graph) (mkE 0 0 0 (mkED (mkComp 0 Waveguide false) Waveguide))).
  set (f := nth 2 (g_edges fibre_graph) (mkE 0 0 0 (mkED (mkComp 0 Waveguide false) Waveguide))).
  assert (Q : forall s l m, (get_params s 206 = Ok [Num l] -> set_to s (e_model (e_dat e)) l) /\ (get_params s 207 = Ok [Num m] -> set_to s (e_model (e_dat f)) m)).
  { intros s l m. split; intros H; destruct (params_has s _ _ H) as (o & Ho); eexists; (split; [exists o; exact Ho|reflexivity]). }
  destruct (C96_moved halves second_only grid8 fibre_graph dark8 0 e f 1000 1000 0 2000 [] [] W A T) as [B1 B2].
  - vm_compute. repeat constructor; simpl; intuition discriminate.
  - exact F1.
  - exact F2.
  - exact grid8_usable.
  - reflexivity.
  - exact grid8_bins.
  - split; [vm_compute; tauto|]. split; [vm_compute; tauto|]. split; [reflexivity|]. split; [|split].
    + intros d Hd Ed. vm_compute in Hd. destruct Hd as [<-|[<-|[<-|[<-|[]]]]]; try discriminate Ed. reflexivity.
    + intros d Hd Ed. vm_compute in Hd. destruct Hd as [<-|[<-|[<-|[<-|[]]]]]; try discriminate Ed. reflexivity.
    + eexists. split; [eexists; split; [vm_compute; right; right; left; reflexivity|reflexivity]|reflexivity].
  - left. reflexivity.
  - reflexivity.
  - apply (proj1 (Q halves 1000 1000)%Q). vm_compute. reflexivity.
  - apply (proj2 (Q halves 1000 1000)%Q). vm_compute. reflexivity.
  - apply (proj1 (Q second_only 0 2000)%Q). vm_compute. reflexivity.
  - apply (proj2 (Q second_only 0 2000)%Q). vm_compute. reflexivity.
  - reflexivity.
  - intros c Hc N1 N2 ps. assert (X : get_params halves (cid c) = get_params second_only (cid c)).
    { vm_compute in Hc. repeat (destruct Hc as [<-|Hc]; [try (vm_compute; reflexivity); exfalso; (apply N1; reflexivity) || (apply N2; reflexivity)|]). destruct Hc. }
    split; intros H; apply holds_params in H; [rewrite X in H|rewrite <- X in H]; apply params_has; exact H.
  - split; [apply B2; [exact K1|discriminate]|]. rewrite (B2 K1 (PNode 4)) by discriminate. clear -K1 W A. unfold simulate in *. destruct (propagate (optics halves grid8) fibre_graph dark8 tt []) as [[x sv] r] eqn:E. cbn [fst snd] in *. subst r.
    destruct (proj1 (PropagateProofs.propagate_solution (optics halves grid8) fibre_graph dark8 W tt [] (kind_steady (optics halves grid8) fibre_graph) A) x sv E) as (_ & val & out & _ & (_ & R2 & _)).
    rewrite (R2 4); [discriminate|]. split; [eexists; vm_compute; right; right; right; right; left; reflexivity|]. intros d Hd. vm_compute in Hd. destruct Hd as [<-|[<-|[<-|[<-|[]]]]]; discriminate.
Qed.
