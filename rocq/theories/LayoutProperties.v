(** C21: the layout of a graph. *)
From Coq Require Import List Arith Bool Lia Permutation QArith.
From Verif Require Import Base GraphModel GraphSpec OperatorsModel OperatorsSpec InitProofs LayoutModel LayoutSpec LayoutProofs EvolutionExamples EvolverExamples SimulateProperties.
Import ListNotations.
Local Open Scope nat_scope.

Theorem C21_exact : forall enum rand g, (forall l, Permutation (enum l) l) -> wf g -> acyclic g ->
  ((exists s, no_input g s /\ forall n, no_input g n -> n = s) <-> exists pos, ends_with enum rand g (Ok pos)) /\
  ((exists a b, no_input g a /\ no_input g b /\ a <> b) <-> never_ends enum rand g).
Proof. exact layout_exact. Qed.
Print Assumptions C21_exact.

Theorem C21_positions : forall enum rand g s, (forall l, Permutation (enum l) l) -> wf g -> acyclic g -> no_input g s -> (forall n, no_input g n -> n = s) ->
  exists pos, (forall fuel, length (g_nodes g) < fuel -> optical_system_layout enum rand g fuel = Ok pos) /\
    NoDup (map fst pos) /\ (forall n, In n (map fst pos) <-> is_node g n) /\
    (forall n r y, In (n, (r, y)) pos -> longest g s n r /\ exists j, y = (rand j * 4)%Q) /\
    (forall e r y r' y', In e (g_edges g) -> In (e_src e, (r, y)) pos -> In (e_dst e, (r', y')) pos -> r < r').
Proof. exact layout_ends. Qed.
Print Assumptions C21_positions.

Theorem C21_raises : forall enum rand g fuel, wf g ->
  (g_nodes g = [] -> optical_system_layout enum rand g fuel = Err IndexError) /\
  (~ acyclic g -> optical_system_layout enum rand g fuel = Err Unfeasible).
Proof. exact layout_raises. Qed.
Print Assumptions C21_raises.

Theorem C21_evolution : forall enum rand enum' rand' L g os g', (forall l, Permutation (enum l) l) -> (forall l, Permutation (enum' l) l) -> wf g -> acyclic g -> evo_run L g os g' ->
  ((exists pos, ends_with enum' rand' g' (Ok pos)) <-> exists pos, ends_with enum rand g (Ok pos)) /\
  (never_ends enum' rand' g' <-> never_ends enum rand g).
Proof. exact layout_evolved. Qed.
Print Assumptions C21_evolution.

(* a shortcut 1 -> 3 beside 1 -> 2 -> 3: node 3 goes to the later row; two sources: no end *)
Definition shortcut : graph :=
  match init_graph [(0, mkComp 1 TerminalSource false); (1, mkComp 2 VariablePowerSplitter false); (2, mkComp 3 VariablePowerSplitter false);
                    (3, mkComp 4 VariablePowerSplitter false); (4, mkComp 5 TerminalSink false)]
     [((0, 1, 0), mkComp 11 Impulse false); ((1, 3, 0), mkComp 12 DelayLine false); ((1, 2, 0), mkComp 13 DelayLine false); ((2, 3, 0), mkComp 14 DelayLine false);
      ((3, 4, 0), mkComp 15 Photodiode false)] with Some g => g | None => empty_graph end.
Definition twin : graph :=
  match init_graph [(0, mkComp 1 TerminalSource false); (1, mkComp 2 TerminalSource false); (2, mkComp 3 TerminalSink false)]
     [((0, 2, 0), mkComp 11 Impulse false); ((1, 2, 0), mkComp 12 Impulse false)] with Some g => g | None => empty_graph end.
Example C21_case :
  optical_system_layout (fun l => l) (fun i => inject_Z (Z.of_nat i)) shortcut 6 = Ok [(0, (0, 0%Q)); (1, (1, 4%Q)); (2, (2, 8%Q)); (3, (3, 12%Q)); (4, (4, 16%Q))] /\
  optical_system_layout (fun l => l) (fun _ => 0%Q) twin 30 = Err OutOfFuel /\ no_input twin 0 /\ no_input twin 1 /\ acyclic twin /\
  next_row shortcut [1] = [2] /\ successors_of shortcut [1] = [3; 2].
Proof.
  split; [vm_compute; reflexivity|]. split; [vm_compute; reflexivity|].
  assert (Hn : NoDup (map fst [(0, mkComp 1 TerminalSource false); (1, mkComp 2 TerminalSource false); (2, mkComp 3 TerminalSink false)])) by (vm_compute; repeat constructor; simpl; intuition discriminate).
  destruct (init_graph_some _ [((0, 2, 0), mkComp 11 Impulse false); ((1, 2, 0), mkComp 12 Impulse false)] twin Hn eq_refl) as (W & A & _).
  split; [split; [eexists; left; reflexivity|]; intros e He Q; vm_compute in He; destruct He as [<-|[<-|[]]]; discriminate Q|].
  split; [split; [eexists; right; left; reflexivity|]; intros e He Q; vm_compute in He; destruct He as [<-|[<-|[]]]; discriminate Q|].
  split; [exact A|]. split; vm_compute; reflexivity.
Qed.
