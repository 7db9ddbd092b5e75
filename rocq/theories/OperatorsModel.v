(** Model of simulator/fiber/evolution_operators/evolution_operators.py.
    Definitions only. *)
From Coq Require Import List Arith Bool.
From Verif Require Import GraphModel.
Import ListNotations.

(* lib/base_classes.py:122-128: the sets of classes an operator may draw from *)
Record library := mkLib {
  source_models : list cls;
  sink_models : list cls;
  edge_models : list cls;
  node_models : list cls }.

(* The library assembled by the decorators @register_node_types_all
   (simulator/fiber/assets/decorators.py:10-19, class list in node_types_subclasses). *)
Definition default_library : library := {|
  source_models := [PulsedLaser; ContinuousWaveLaser; NoisySignal; Impulse];
  sink_models := [MeasurementDevice; ElectricFieldMeasurementDevice; Photodiode];
  edge_models := [DispersiveFiber; VariableOpticalAttenuator; PhaseModulator; IntensityModulator;
                  WaveShaper; OpticalAmplifier; ProgrammableFilter; SquareFilter; DelayLine];
  node_models := [VariablePowerSplitter] |}.

(* lib/functions.py:17-30 custom_library: the listed classes grouped by base class.
   A class whose base is not a library key (a terminal) raises KeyError = None. *)
Definition custom_library (cs : list cls) : option library :=
  if forallb (fun c => match family_of c with TermSource | TermSink => false | _ => true end) cs
  then Some {|
    source_models := nodup cls_eq_dec (filter (fun c => family_eqb (family_of c) SourceModel) cs);
    sink_models := nodup cls_eq_dec (filter (fun c => family_eqb (family_of c) SinkModel) cs);
    edge_models := nodup cls_eq_dec (filter (fun c => family_eqb (family_of c) SinglePath) cs);
    node_models := nodup cls_eq_dec (filter (fun c => family_eqb (family_of c) MultiPath) cs) |}
  else None.

Inductive op := AddSeries | AddParallel | Remove | Swap.

(* configuration.EVOLUTION_OPERATORS in registration order
   (evolution_operators.py:19,79,122,175) *)
Definition evo_op_list : list op := [AddSeries; AddParallel; Remove; Swap].

(* What is drawn at random by one application: random.sample(self.edge_models,1),
   random.sample(self.node_models,1), random.sample(swap_set,1) and uuid4().
   The fields are only used by the operators that draw them. *)
Record draws := mkDraws {
  d_edge : comp;     (* freshly constructed edge component *)
  d_node : comp;     (* freshly constructed node component *)
  d_swap : comp;     (* freshly constructed replacement component *)
  d_id : node }.     (* graph.get_next_valid_node_ID() *)

Definition fresh_edata (c : comp) : edata := mkED c (ccls c).
Definition fresh_ndata (c : comp) : ndata := mkND c (ccls c).

(** ** Possible locations *)

Definition node_protected (g : graph) (n : node) : bool :=
  match node_data g n with Some d => cprot (n_model d) | None => true end.
Definition node_cls (g : graph) (n : node) : option cls :=
  match node_data g n with Some d => Some (ccls (n_model d)) | None => None end.

(* evolution_operators.py:67-76 *)
Definition series_locations (g : graph) : list location := interfaces g.

(* evolution_operators.py:113-118; note that the output degree is compared with
   the *input* range, as in the code *)
Definition parallel_node_ok (g : graph) (n : node) : bool :=
  negb (Nat.eqb (in_degree g n) 0) &&
  negb (Nat.eqb (out_degree g n) 0) &&
  negb (node_protected g n) &&
  match node_cls g n with
  | Some c => Nat.ltb (in_degree g n) (max_inputs c) && Nat.ltb (out_degree g n) (max_inputs c)
  | None => false
  end.

(* itertools.combinations(l, 2) *)
Fixpoint combinations2 {A} (l : list A) : list (A * A) :=
  match l with
  | [] => []
  | x :: r => map (pair x) r ++ combinations2 r
  end.

(* evolution_operators.py:105-119; None = topological_sort raised *)
Definition parallel_locations (g : graph) : option (list location) :=
  match topological_sort g with
  | None => None
  | Some o => Some (map (fun p => LPair (fst p) (snd p))
                        (combinations2 (filter (parallel_node_ok g) o)))
  end.

(* evolution_operators.py:165-172 *)
Definition remove_ok (g : graph) (l : location) : bool :=
  match l with
  | LIface _ (u, v, k) =>
      negb (Nat.eqb (in_degree g u) 0) &&
      negb (Nat.eqb (out_degree g v) 0) &&
      match find_edge g (u, v, k) with Some e => negb (cprot (e_model (e_dat e))) | None => false end &&
      negb (node_protected g u) &&
      negb (node_protected g v)
  | _ => false
  end.
Definition remove_locations (g : graph) : list location := filter (remove_ok g) (interfaces g).

(* evolution_operators.py:230-235 / 195-203: which set an edge swap draws from.
   _node_type is "source node" exactly for TerminalSource and "sink node" exactly
   for TerminalSink (terminals.py:16,56; node_types.py:17,31,47,64). *)
Definition edge_swap_models (L : library) (g : graph) (u v : node) : list cls :=
  if match node_cls g u with Some TerminalSource => true | _ => false end then source_models L
  else if match node_cls g v with Some TerminalSink => true | _ => false end then sink_models L
  else edge_models L.

(* evolution_operators.py:226-235 *)
Definition swap_possible_edge (L : library) (g : graph) (e : edge) : bool :=
  Nat.ltb 1 (length (edge_swap_models L g (e_src e) (e_dst e))).
Definition swap_possible_node (L : library) : bool := Nat.ltb 1 (length (node_models L)).

(* evolution_operators.py:237-244 *)
Definition swap_locations (L : library) (g : graph) : list location :=
  map LNode (filter (fun n => negb (node_protected g n) &&
                              negb (Nat.eqb (in_degree g n) 0) &&
                              negb (Nat.eqb (out_degree g n) 0) &&
                              swap_possible_node L) (node_ids g)) ++
  map (fun e => LEdge (e_id e))
      (filter (fun e => negb (cprot (e_model (e_dat e))) && swap_possible_edge L g e) (edges_view g)).

Definition possible_locations (L : library) (o : op) (g : graph) : option (list location) :=
  match o with
  | AddSeries => Some (series_locations g)
  | AddParallel => parallel_locations g
  | Remove => Some (remove_locations g)
  | Swap => Some (swap_locations L g)
  end.

(** ** Applying the operators (None = an exception is raised) *)

(* evolution_operators.py:34-65 *)
Definition apply_series (g : graph) (n : node) (i : eid) (d : draws) : option graph :=
  match find_edge g i with
  | None => None
  | Some e =>
      let old := e_dat e in
      let g1 := add_node g (d_id d) (fresh_ndata (d_node d)) in
      let g2 := remove_edge g1 i in
      let new := fresh_edata (d_edge d) in
      if Nat.eqb n (e_src e) then
        Some (add_edge (add_edge g2 n (d_id d) new) (d_id d) (e_dst e) old)
      else
        Some (add_edge (add_edge g2 (e_src e) (d_id d) old) (d_id d) n new)
  end.

(* evolution_operators.py:95-103 *)
Definition apply_parallel (g : graph) (a b : node) (d : draws) : option graph :=
  if has_node g a && has_node g b then Some (add_edge g a b (fresh_edata (d_edge d))) else None.

Definition set_node_data (g : graph) (n : node) (d : ndata) : graph :=
  mkG (set_assoc n d (g_nodes g)) (g_edges g).

Definition set_edge_data (g : graph) (i : eid) (d : edata) : graph :=
  mkG (g_nodes g)
      (map (fun e => if eid_eqb (e_id e) i then mkE (e_src e) (e_dst e) (e_key e) d else e) (g_edges g)).

(* evolution_operators.py:140-163 *)
Definition apply_remove (g : graph) (n : node) (i : eid) : option graph :=
  match find_edge g i with
  | None => None
  | Some e =>
      let u := e_src e in
      let v := e_dst e in
      let g1 := remove_edge g i in
      if has_path g1 u v then Some g1
      else match node_data g1 n with
           | None => None
           | Some save => Some (set_node_data (contract g1 u v) u save)
           end
  end.

(* evolution_operators.py:188-191, 210-218: swap on a node; the 'name' entry is not
   updated by the code.  With an empty swap set the graph is returned unchanged
   (verbose=False, the default). *)
Definition swap_set (models : list cls) (c : cls) : list cls :=
  filter (fun x => negb (cls_eqb x c)) models.

Definition apply_swap_node (L : library) (g : graph) (n : node) (d : draws) : option graph :=
  match node_data g n with
  | None => None
  | Some nd =>
      match swap_set (node_models L) (ccls (n_model nd)) with
      | [] => Some g
      | _ => Some (set_node_data g n (mkND (d_swap d) (n_name nd)))
      end
  end.

(* evolution_operators.py:192-203, 210-224 *)
Definition apply_swap_edge (L : library) (g : graph) (i : eid) (d : draws) : option graph :=
  match find_edge g i with
  | None => None
  | Some e =>
      match swap_set (edge_swap_models L g (e_src e) (e_dst e)) (ccls (e_model (e_dat e))) with
      | [] => Some g
      | _ => Some (set_edge_data g i (mkED (d_swap d) (e_name (e_dat e))))
      end
  end.

Definition apply_op (L : library) (o : op) (g : graph) (l : location) (d : draws) : option graph :=
  match o, l with
  | AddSeries, LIface n i => apply_series g n i d
  | AddParallel, LPair a b => apply_parallel g a b d
  | Remove, LIface n i => apply_remove g n i
  | Swap, LNode n => apply_swap_node L g n d
  | Swap, LEdge i => apply_swap_edge L g i d
  | _, _ => None
  end.

(* What the random draws may be: newly constructed, unprotected components
   (lib/base_classes.py:12 is the class default and no library class overrides it)
   of a class from the set sampled by that operator, and a node label not yet in
   use (uuid4, assumed unique). *)
Definition used_ids (g : graph) : list nat :=
  map (fun p => cid (n_model (snd p))) (g_nodes g) ++ map (fun e => cid (e_model (e_dat e))) (g_edges g).

Definition draws_ok (L : library) (o : op) (g : graph) (l : location) (d : draws) : Prop :=
  match o, l with
  | AddSeries, _ =>
      In (ccls (d_edge d)) (edge_models L) /\ cprot (d_edge d) = false /\
      In (ccls (d_node d)) (node_models L) /\ cprot (d_node d) = false /\
      ~ In (cid (d_edge d)) (used_ids g) /\ ~ In (cid (d_node d)) (used_ids g) /\
      cid (d_edge d) <> cid (d_node d) /\
      ~ In (d_id d) (node_ids g)
  | AddParallel, _ =>
      In (ccls (d_edge d)) (edge_models L) /\ cprot (d_edge d) = false /\
      ~ In (cid (d_edge d)) (used_ids g)
  | Remove, _ => True
  | Swap, LNode n =>
      (forall c, node_cls g n = Some c -> swap_set (node_models L) c <> [] ->
                 In (ccls (d_swap d)) (swap_set (node_models L) c)) /\
      cprot (d_swap d) = false /\ ~ In (cid (d_swap d)) (used_ids g)
  | Swap, LEdge i =>
      (forall e, find_edge g i = Some e ->
         swap_set (edge_swap_models L g (e_src e) (e_dst e)) (ccls (e_model (e_dat e))) <> [] ->
         In (ccls (d_swap d)) (swap_set (edge_swap_models L g (e_src e) (e_dst e)) (ccls (e_model (e_dat e))))) /\
      cprot (d_swap d) = false /\ ~ In (cid (d_swap d)) (used_ids g)
  | Swap, _ => False
  end.

(* One evolution step: an operator applied at a location it offers. *)
Inductive evo_step (L : library) : graph -> op -> graph -> Prop :=
| evo_step_intro : forall g o l d locs g',
    possible_locations L o g = Some locs -> In l locs ->
    draws_ok L o g l d ->
    apply_op L o g l d = Some g' ->
    evo_step L g o g'.

(* Any finite history of evolution steps. *)
Inductive evo_run (L : library) : graph -> list op -> graph -> Prop :=
| evo_nil : forall g, evo_run L g [] g
| evo_cons : forall g o g' os g'', evo_step L g o g' -> evo_run L g' os g'' -> evo_run L g (o :: os) g''.
