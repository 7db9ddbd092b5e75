(** A concrete graph and concrete numerics for the theorems about tracers. *)
From Coq Require Import List Arith Bool ZArith QArith.
From Verif Require Import Base GraphModel GraphSpec GraphProofs InitSpec InitProofs OperatorsModel OperatorsSpec TypingProofs ParamsModel ParamsSpec EvolverModel EvolveSpec BuildProofs EvolutionExamples
  PropagateModel PhaseModel TracerModel TracerSpec.
Import ListNotations.
Local Open Scope nat_scope.

(* laser, splitter, a protected phase shifter and an amplifier in parallel, splitter, detector *)
Definition edges_t : list (eid * comp) :=
  [((0, 1, 7), mkComp 104 ContinuousWaveLaser false); ((1, 2, 0), mkComp 105 PhaseShifter true);
   ((1, 2, 5), mkComp 106 OpticalAmplifier false); ((2, 3, 0), mkComp 107 Photodiode false)].
Definition g_t : graph := match init_graph nodes0 edges_t with Some g => g | None => empty_graph end.
Lemma g_t_built : init_graph nodes0 edges_t = Some g_t.
Proof. vm_compute; reflexivity. Qed.
Lemma g_t_wf : wf g_t.
Proof. exact (proj1 (init_graph_some nodes0 edges_t g_t nodes0_nodup g_t_built)). Qed.
Lemma g_t_typed : typed g_t.
Proof. apply typedb_typed; [exact g_t_wf|vm_compute; reflexivity]. Qed.
Definition s_t : store := match new_world nodes0 edges_t 1 2 with Ok w => EvolverModel.w_store w | Err _ => mkStore [] [] end.
Lemma s_t_sound : all_readable g_t s_t /\ separate s_t.
Proof.
  assert (ND : NoDup (map (fun p : node * comp => cid (snd p)) nodes0 ++ map (fun p : eid * comp => cid (snd p)) edges_t)) by (simpl; repeat constructor; simpl; intuition discriminate).
  destruct (new_healthy_gen nodes0 edges_t 1 2 nodes0_nodup g_t g_t_built g_t_typed ND) as (w & E & Eg & _ & _ & _ & _ & H & [Sp _]).
  unfold s_t. rewrite E. destruct H as ((_ & _ & _ & Rd & _) & _). rewrite Eg in Rd. exact (conj Rd Sp).
Qed.
(* no tracer anywhere, nothing simulated yet *)
Definition w_t : world := mkW s_t (fun _ _ => []) [] [].
Lemma w_t_plain : plain_locked g_t w_t.
Proof. intros i k a _ (o & ps & _ & _ & <-) _. reflexivity. Qed.
Lemma w_t_phase : one_phase g_t w_t.
Proof.
  assert (T : forallb (fun e => if cls_eqb (ccls (e_model (e_dat e))) PhaseShifter then match assoc (cid (e_model (e_dat e))) (s_objs s_t) with Some o => match assoc (o_list o) (s_lists s_t) with Some [_] => true | _ => false end | None => false end else true) (g_edges g_t) = true) by (vm_compute; reflexivity).
  intros e He Hc. rewrite forallb_forall in T. specialize (T e He). rewrite Hc in T. cbn [cls_eqb] in T. replace (cls_eqb PhaseShifter PhaseShifter) with true in T by reflexivity.
  unfold has, w_t. cbn [w_store]. destruct (assoc (cid (e_model (e_dat e))) (s_objs s_t)) as [o|] eqn:E1; [|discriminate]. destruct (assoc (o_list o) (s_lists s_t)) as [[|v [|v2 l]]|] eqn:E2; try discriminate.
  exists o, v. auto.
Qed.
Definition x_t : extracted := match extract g_t s_t with Ok x => x | Err _ => mkX [] [] [] [] [] [] [] [] end.

(* everything a component computes belongs to all traces of its parameters and inputs *)
Definition union (l : list mark) : mark := nodup Nat.eq_dec (concat l).
Definition blend : numerics :=
  mkNum (fun c ps ins i o => Ok (repeat (union (ps ++ ins)) (Nat.max 1 o))) (fun c ps s => Ok (union (s :: ps))) (fun c ps s => union (s :: ps)).
Lemma blend_makes_none : makes_none blend.
Proof.
  assert (U : forall l a, In a (union l) -> exists b, In b l /\ In a b).
  { intros l a H. unfold union in H. apply nodup_In, in_concat in H. exact H. }
  repeat split; cbn [nm_node nm_edge nm_gain blend].
  - intros c ps ins i o outs a l H Ha Hl. injection H as <-. apply repeat_spec in Ha. subst a. exact (U _ _ Hl).
  - intros c ps s a l H Hl. injection H as <-. exact (U _ _ Hl).
  - intros c ps s l Hl. exact (U _ _ Hl).
Qed.
(* the detected signal is the score *)
Definition detect : evaluator := Reads (fun sv => measure sv (PNode 3)).
Lemma detect_fair : fair detect.
Proof. intros sv a l H Hl. cbv beta in H. unfold measure in H. destruct (saved sv (PNode 3)) as [b|] eqn:E; [|discriminate]. injection H as <-. exists (PNode 3), b. auto. Qed.

(* what there is to see: the parameters of all components, the saved states of the edges and of the
   detector's node, what the amplifier remembers *)
Definition view (w : world) : list (list mark) * list (option mark) * list mark :=
  (match map_res (fun m => param_marks w (fst m)) (get_models g_t) with Ok l => l | Err _ => [] end,
   map (fun e => saved (w_saves w) (PEdge (e_src e, e_dst e, e_key e))) (g_edges g_t) ++ [saved (w_saves w) (PNode 3)],
   map snd (w_gain w)).
Definition plain_t : list mark := repeat [] (length (x_models x_t)).
Definition func_t (w : world) := func blend detect g_t (x_models x_t) (x_index x_t) 0 w plain_t.
Definition gradient_t (w : world) := gradient blend detect g_t (x_models x_t) (x_index x_t) 0 w plain_t.
Definition hessian_t (w : world) := hessian blend detect g_t (x_models x_t) (x_index x_t) 0 w plain_t.
(* the parameters of the eight components, all plain *)
Definition plain_view : list (list mark) := [[]; [[]]; []; []; [[]; []; []; []]; [[]]; repeat [] 9; repeat [] 7].
(* the same with [a] in the free ones *)
Definition marked_view (a : mark) : list (list mark) := [[]; [a]; []; []; [a; []; []; []]; [a]; a :: repeat [] 8; repeat [] 7].
