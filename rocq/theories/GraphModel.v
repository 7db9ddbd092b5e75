(** Model of the optical-system graph: lib/graph.py on top of networkx 2.5
    MultiDiGraph (the version pinned in requirements.txt:2).
    Definitions only; no proofs in this file. *)
From Coq Require Import List Arith Bool.
Import ListNotations.

(* Node labels. Python: any hashable (str, int, uuid4). Modelled by nat; only
   equality of labels is ever used by the code. *)
Notation node := nat (only parsing).
(* Edge keys of the multigraph: non-negative ints, networkx new_edge_key. *)
Notation key := nat (only parsing).

(** ** Component classes *)

(* simulator/fiber/node_types_subclasses/*.py: inputs.py:18,82,121,204
   outputs.py:19,45,72  multi_path.py:16,79
   single_path.py:23,83,120,193,244,325,395,602,676,727,785,843,873
   terminals.py:6,46 *)
Inductive cls :=
| PulsedLaser | ContinuousWaveLaser | NoisySignal | Impulse
| MeasurementDevice | ElectricFieldMeasurementDevice | Photodiode
| VariablePowerSplitter | FrequencySplitter
| DispersiveFiber | VariableOpticalAttenuator | PhaseModulator | IntensityModulator
| WaveShaper | IntegratedSplitAndDelayLine | OpticalAmplifier | ProgrammableFilter
| SquareFilter | DelayLine | IntegratedDelayLine | Waveguide | PhaseShifter
| TerminalSource | TerminalSink.

Definition cls_eq_dec : forall a b : cls, {a = b} + {a <> b}.
Proof. decide equality. Defined.
Definition cls_eqb (a b : cls) : bool := if cls_eq_dec a b then true else false.

(* simulator/fiber/node_types.py:8-69 (parent classes) and terminals.py:6,46 *)
Inductive family := SourceModel | SinkModel | MultiPath | SinglePath | TermSource | TermSink.

(* the __base__ of each class, same lines as [cls] *)
Definition family_of (c : cls) : family :=
  match c with
  | PulsedLaser | ContinuousWaveLaser | NoisySignal | Impulse => SourceModel
  | MeasurementDevice | ElectricFieldMeasurementDevice | Photodiode => SinkModel
  | VariablePowerSplitter | FrequencySplitter => MultiPath
  | TerminalSource => TermSource
  | TerminalSink => TermSink
  | _ => SinglePath
  end.

Definition family_eq_dec : forall a b : family, {a = b} + {a <> b}.
Proof. decide equality. Defined.
Definition family_eqb (a b : family) : bool := if family_eq_dec a b then true else false.

(* _range_input_edges[1]: node_types.py:19,33,49,66 and terminals.py:33,73 *)
Definition max_inputs (c : cls) : nat :=
  match family_of c with
  | SourceModel => 0 | SinkModel => 1 | MultiPath => 2 | SinglePath => 1
  | TermSource => 0 | TermSink => 1
  end.

(* _range_output_edges[1]: node_types.py:20,34,50,67 and terminals.py:34,74 *)
Definition max_outputs (c : cls) : nat :=
  match family_of c with
  | SourceModel => 1 | SinkModel => 0 | MultiPath => 2 | SinglePath => 1
  | TermSource => 1 | TermSink => 0
  end.

(* A component object: identity, class and the [protected] attribute
   (lib/base_classes.py:12).  Parameters live in a heap indexed by identity
   (see ParamsModel.v), so that object sharing can be expressed. *)
Record comp := mkComp { cid : nat; ccls : cls; cprot : bool }.

(** ** The multigraph *)

(* graph.nodes[n] = {'model':..., 'name':..., 'lock': False}, lib/graph.py:38.
   The constant 'lock', and the never-read 'source-sink' (graph.py:44-45) and
   'contraction' attributes are not modelled. *)
Record ndata := mkND { n_model : comp; n_name : cls }.
(* graph.edges[e], lib/graph.py:40 *)
Record edata := mkED { e_model : comp; e_name : cls }.

Notation eid := (node * node * key)%type (only parsing).
Record edge := mkE { e_src : node; e_dst : node; e_key : key; e_dat : edata }.
Definition e_id (e : edge) : eid := (e_src e, e_dst e, e_key e).

Definition eid_eqb (a b : eid) : bool :=
  match a, b with (u, v, k), (u', v', k') => Nat.eqb u u' && Nat.eqb v v' && Nat.eqb k k' end.

(* networkx keeps _succ[u][v] = _pred[v][u] = {key: data}.  [g_edges] lists all
   edges, edges of one (u,v) pair contiguous in key-insertion order, pairs in
   creation order; filtering by source or by target then yields networkx'
   out-edge and in-edge iteration orders (DESIGN.md, "Multigraph representation"). *)
Record graph := mkG { g_nodes : list (node * ndata); g_edges : list edge }.

Definition empty_graph : graph := mkG [] [].

Definition node_ids (g : graph) : list node := map fst (g_nodes g).

Fixpoint assoc {A} (n : nat) (l : list (nat * A)) : option A :=
  match l with
  | [] => None
  | (m, d) :: r => if Nat.eqb n m then Some d else assoc n r
  end.

(* graph.nodes[n]; None = KeyError *)
Definition node_data (g : graph) (n : node) : option ndata := assoc n (g_nodes g).

Definition mem (n : nat) (l : list nat) : bool := existsb (Nat.eqb n) l.

Definition has_node (g : graph) (n : node) : bool := mem n (node_ids g).

(* graph.edges[e]; None = KeyError *)
Definition find_edge (g : graph) (i : eid) : option edge :=
  find (fun e => eid_eqb (e_id e) i) (g_edges g).

Fixpoint set_assoc {A} (n : nat) (d : A) (l : list (nat * A)) : list (nat * A) :=
  match l with
  | [] => []
  | (m, x) :: r => if Nat.eqb n m then (m, d) :: r else (m, x) :: set_assoc n d r
  end.

(* DiGraph.add_node: append, or update the attributes of an existing node *)
Definition add_node (g : graph) (n : node) (d : ndata) : graph :=
  if has_node g n then mkG (set_assoc n d (g_nodes g)) (g_edges g)
  else mkG (g_nodes g ++ [(n, d)]) (g_edges g).

Definition same_pair (u v : node) (e : edge) : bool :=
  Nat.eqb (e_src e) u && Nat.eqb (e_dst e) v.

Definition pair_keys (es : list edge) (u v : node) : list key :=
  map e_key (filter (same_pair u v) es).

(* MultiGraph.new_edge_key: key = len(keydict); while key in keydict: key += 1.
   The fuel is the length of the key list plus one, which always suffices
   (GraphProofs.new_key_fresh). *)
Fixpoint next_key (fuel : nat) (ks : list key) (k : key) : key :=
  match fuel with
  | O => k
  | S f => if mem k ks then next_key f ks (S k) else k
  end.
Definition new_edge_key (es : list edge) (u v : node) : key :=
  let ks := pair_keys es u v in next_key (S (length ks)) ks (length ks).

(* position of a new edge: after the last edge of the same pair, else at the end *)
Fixpoint insert_edge (x : edge) (es : list edge) : list edge :=
  match es with
  | [] => [x]
  | e :: r =>
      if same_pair (e_src x) (e_dst x) e && negb (existsb (same_pair (e_src x) (e_dst x)) r)
      then e :: x :: r
      else e :: insert_edge x r
  end.

(* MultiDiGraph.add_edge(u, v, **d) without key, both ends present
   (all callers in the repository that reach it; see [init_edges] for init_graph) *)
Definition add_edge (g : graph) (u v : node) (d : edata) : graph :=
  mkG (g_nodes g) (insert_edge (mkE u v (new_edge_key (g_edges g) u v) d) (g_edges g)).

(* MultiDiGraph.remove_edge(u, v, key) on a present edge *)
Definition remove_edge (g : graph) (i : eid) : graph :=
  mkG (g_nodes g) (filter (fun e => negb (eid_eqb (e_id e) i)) (g_edges g)).

(* MultiDiGraph.remove_node *)
Definition remove_node (g : graph) (n : node) : graph :=
  mkG (filter (fun p => negb (Nat.eqb (fst p) n)) (g_nodes g))
      (filter (fun e => negb (Nat.eqb (e_src e) n) && negb (Nat.eqb (e_dst e) n)) (g_edges g)).

(* graph.in_edges(n) / graph.out_edges(n) *)
Definition nx_in_edges (g : graph) (n : node) : list edge :=
  filter (fun e => Nat.eqb (e_dst e) n) (g_edges g).
Definition nx_out_edges (g : graph) (n : node) : list edge :=
  filter (fun e => Nat.eqb (e_src e) n) (g_edges g).

(* graph.in_degree[n], graph.out_degree[n] *)
Definition in_degree (g : graph) (n : node) : nat := length (nx_in_edges g n).
Definition out_degree (g : graph) (n : node) : nat := length (nx_out_edges g n).

(* graph.edges: for n in nodes, for nbr in _succ[n], for key *)
Definition edges_view (g : graph) : list edge :=
  flat_map (fun n => nx_out_edges g n) (node_ids g).

(* lib/graph.py:158-160 *)
Definition get_in_edges (g : graph) (n : node) : list edge :=
  filter (fun e => Nat.eqb (e_dst e) n) (edges_view g).
(* lib/graph.py:162-164 *)
Definition get_out_edges (g : graph) (n : node) : list edge :=
  filter (fun e => Nat.eqb (e_src e) n) (edges_view g).
(* lib/graph.py:152-156 *)
Definition get_in_degree (g : graph) (n : node) : nat := length (get_in_edges g n).
Definition get_out_degree (g : graph) (n : node) : nat := length (get_out_edges g n).

(* lib/graph.py:285-289; None = IndexError *)
Definition get_output_node (g : graph) : option node :=
  find (fun n => match nx_out_edges g n with [] => true | _ => false end) (node_ids g).

(* graph.predecessors(n) / successors(n): keys of _pred[n] / _succ[n], lib/graph.py:166-174 *)
Definition pre (g : graph) (n : node) : list node :=
  nodup Nat.eq_dec (map e_src (nx_in_edges g n)).
Definition suc (g : graph) (n : node) : list node :=
  nodup Nat.eq_dec (map e_dst (nx_out_edges g n)).

(** ** Reachability: nx.has_path, nx.ancestors *)

(* one breadth-first layer added to the visited set *)
Definition grow (es : list edge) (vis : list node) : list node :=
  nodup Nat.eq_dec (vis ++ map e_dst (filter (fun e => mem (e_src e) vis) es)).

Fixpoint reach_fuel (fuel : nat) (es : list edge) (vis : list node) : list node :=
  match fuel with O => vis | S f => reach_fuel f es (grow es vis) end.

(* all nodes reachable from u (including u); the number of nodes is enough layers *)
Definition reachable (g : graph) (u : node) : list node :=
  reach_fuel (length (g_nodes g)) (g_edges g) [u].

(* nx.algorithms.shortest_paths.generic.has_path(graph, u, v) on present nodes *)
Definition has_path (g : graph) (u v : node) : bool := mem v (reachable g u).

(* nx.algorithms.ancestors(g, n): nodes other than n with a path to n *)
Definition is_ancestor (g : graph) (a n : node) : bool :=
  negb (Nat.eqb a n) && has_path g a n.

(** ** nx.topological_sort (networkx 2.5): Kahn's algorithm with a stack *)

Definition bump_down (c : node) (m : list (node * nat)) : list (node * nat) :=
  map (fun p => if Nat.eqb (fst p) c then (fst p, pred (snd p)) else p) m.
Definition drop (c : node) (m : list (node * nat)) : list (node * nat) :=
  filter (fun p => negb (Nat.eqb (fst p) c)) m.

(* inner loop: for _, child in G.edges(node): indegree_map[child] -= 1;
   if it is 0 then zero_indegree.append(child); del indegree_map[child].
   None = RuntimeError (child no longer in the map). *)
Fixpoint kahn_children (cs : list node) (m : list (node * nat)) (stack : list node)
  : option (list (node * nat) * list node) :=
  match cs with
  | [] => Some (m, stack)
  | c :: r =>
      match assoc c m with
      | None => None
      | Some k =>
          let m' := bump_down c m in
          if Nat.eqb (pred k) 0 then kahn_children r (drop c m') (c :: stack)
          else kahn_children r m' stack
      end
  end.

(* outer loop; the head of [stack] is the end of the Python list.
   None = NetworkXUnfeasible / RuntimeError; fuel = number of nodes. *)
Fixpoint kahn (fuel : nat) (g : graph) (m : list (node * nat)) (stack : list node)
  : option (list node) :=
  match stack with
  | [] => match m with [] => Some [] | _ => None end
  | n :: r =>
      match fuel with
      | O => None
      | S f =>
          match kahn_children (map e_dst (nx_out_edges g n)) m r with
          | None => None
          | Some (m', st') =>
              match kahn f g m' st' with
              | None => None
              | Some o => Some (n :: o)
              end
          end
      end
  end.

Definition indegree_map (g : graph) : list (node * nat) :=
  filter (fun p => negb (Nat.eqb (snd p) 0)) (map (fun n => (n, in_degree g n)) (node_ids g)).
Definition zero_indegree (g : graph) : list node :=
  rev (filter (fun n => Nat.eqb (in_degree g n) 0) (node_ids g)).

Definition topological_sort (g : graph) : option (list node) :=
  kahn (length (g_nodes g)) g (indegree_map g) (zero_indegree g).

(** ** Graph construction *)

(* which classes define update_attributes (multi_path.py:35,97; terminals.py:38,78) *)
Definition has_update (c : cls) : bool :=
  match family_of c with MultiPath | TermSource | TermSink => true | _ => false end.

(* lib/graph.py:34-49, 90-97: structure part of init_graph.  [nodes] and [edges] are the
   items of the two dictionaries in order; the third component of an edge key is
   ignored by the code (graph.py:40).  None = exception: NetworkXUnfeasible from the
   topological sort, KeyError 'model' in update_graph for an edge end that is not
   declared, AttributeError for a node component without update_attributes. *)
Definition init_nodes (nodes : list (node * comp)) : graph :=
  fold_left (fun g p => add_node g (fst p) (mkND (snd p) (ccls (snd p)))) nodes empty_graph.

Definition init_edges (g : graph) (edges : list (eid * comp)) : graph :=
  fold_left (fun g p => match p with ((u, v, _), c) => add_edge g u v (mkED c (ccls c)) end) edges g.

Definition ends_declared (g : graph) (edges : list (eid * comp)) : bool :=
  forallb (fun p => match p with ((u, v, _), _) => has_node g u && has_node g v end) edges.

Definition init_graph (nodes : list (node * comp)) (edges : list (eid * comp)) : option graph :=
  let g0 := init_nodes nodes in
  if ends_declared g0 edges && forallb (fun p => has_update (ccls (snd p))) nodes then
    let g := init_edges g0 edges in
    match topological_sort g with Some _ => Some g | None => None end
  else None.

(** ** Interfaces and locations *)

(* What an evolution operator can be applied to: a node, an edge, an interface
   (namedtuple 'Interface' node edge) or a pair of nodes *)
Inductive location :=
| LNode (n : node)
| LEdge (e : eid)
| LIface (n : node) (e : eid)
| LPair (a b : node).

(* lib/graph.py:115-120 *)
Definition interfaces (g : graph) : list location :=
  map (fun e => LIface (e_src e) (e_id e))
      (filter (fun e => negb (Nat.eqb (in_degree g (e_src e)) 0)) (edges_view g)) ++
  map (fun e => LIface (e_dst e) (e_id e))
      (filter (fun e => negb (Nat.eqb (out_degree g (e_dst e)) 0)) (edges_view g)).

(** ** nx.algorithms.minors.contracted_nodes(G, u, v, self_loops=False, copy=False)
    networkx 2.5: collect in-edges of v (except from u) redirected to u, then
    out-edges of v (except to u) redirected from u; remove v; add them again with
    fresh keys.  Self-loops on v do not occur in a DAG. *)
Definition contracted_edges (g : graph) (u v : node) : list (node * node * edata) :=
  map (fun e => ((if Nat.eqb (e_src e) v then u else e_src e), u, e_dat e))
      (filter (fun e => negb (Nat.eqb (e_src e) u)) (nx_in_edges g v)) ++
  map (fun e => (u, (if Nat.eqb (e_dst e) v then u else e_dst e), e_dat e))
      (filter (fun e => negb (Nat.eqb (e_dst e) u)) (nx_out_edges g v)).

Definition contract (g : graph) (u v : node) : graph :=
  fold_left (fun g t => match t with (a, b, d) => add_edge g a b d end)
            (contracted_edges g u v) (remove_node g v).
