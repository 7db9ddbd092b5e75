(** What copying and saving should preserve. *)
From Coq Require Import List Arith Bool ZArith QArith.
From Verif Require Import Base GraphModel GraphSpec InitSpec OperatorsModel ParamsModel ParamsSpec SaveModel.
Import ListNotations.
Local Open Scope nat_scope.

(* parallel components are stored next to each other (networkx keeps them in one dictionary) *)
Fixpoint contiguous (l : list (node * node)) : Prop :=
  match l with
  | [] => True
  | p :: r => (In p r -> exists r', r = p :: r') /\ contiguous r
  end.
Definition grouped (g : graph) : Prop := contiguous (map (fun e => (e_src e, e_dst e)) (g_edges g)).

(* parallel components are numbered 0, 1, ... *)
Definition renumbered (g : graph) : Prop := forall u v,
  map e_key (filter (fun e => Nat.eqb (e_src e) u && Nat.eqb (e_dst e) v) (g_edges g)) =
  seq 0 (length (filter (fun e => Nat.eqb (e_src e) u && Nat.eqb (e_dst e) v) (g_edges g))).

(* the nodes of g' are those of g in the same order under new labels, with components related by R *)
Definition nodes_match (f : node -> node) (R : node -> comp -> comp -> Prop) (g g' : graph) : Prop :=
  Forall2 (fun p p' => fst p' = f (fst p) /\ R (fst p) (n_model (snd p)) (n_model (snd p'))) (g_nodes g) (g_nodes g').
(* the connections of g' are those of g, in the order in which the graph object lists them *)
Definition edges_match (f : node -> node) (R : comp -> comp -> Prop) (g g' : graph) : Prop :=
  Forall2 (fun e e' => e_src e' = f (e_src e) /\ e_dst e' = f (e_dst e) /\ R (e_model (e_dat e)) (e_model (e_dat e'))) (edges_view g) (edges_view g').

Definition one_to_one (f : node -> node) (g : graph) : Prop := forall a b, is_node g a -> is_node g b -> f a = f b -> a = b.

(* every component has an object with a parameter list *)
Definition backed (g : graph) (s : store) : Prop := forall i, used g i -> exists o ps, has s i o ps.

(* attributes other than the identity of the parameter list *)
Definition same_attributes (o o' : obj) : Prop :=
  o_lock o' = o_lock o /\ o_lo o' = o_lo o /\ o_hi o' = o_hi o /\ o_types o' = o_types o /\ o_steps o' = o_steps o /\
  o_locks o' = o_locks o /\ o_num o' = o_num o.

(* no object or list created later is already in the store *)
Definition unused_from (next : nat) (s : store) : Prop := forall i o, assoc i (s_objs s) = Some o -> i < next.

(* the attributes a component of that class has when newly built with that many outputs *)
Definition new_object (c : cls) (outputs : nat) : obj :=
  match family_of c with
  | MultiPath => mkObj 0 false (rep (pred outputs) (Num 0)) (rep (pred outputs) (Num 1)) (rep (pred outputs) DFloat)
                       (rep (pred outputs) None) (rep (pred outputs) false) (Z.of_nat outputs - 1)
  | _ => obj_of_spec 0 (spec_of c)
  end.

(* every connector has an output and one parameter less than outputs; terminals have no parameter *)
Definition sized (g : graph) (s : store) : Prop :=
  forall n c o ps, model_at g n c -> has s (cid c) o ps ->
    match family_of (ccls c) with
    | MultiPath => S (length ps) = departures g n
    | _ => ps = []
    end.

(* what a copy of a node component is: a splitter starts again at equal splitting for its
   number of outputs, anything else keeps its parameters *)
Definition node_copy (s s' : store) (outputs : nat) (c c' : comp) : Prop :=
  ccls c' = ccls c /\ cprot c' = cprot c /\
  forall o ps, has s (cid c) o ps -> exists o',
    match family_of (ccls c) with
    | MultiPath => has s' (cid c') o' (split_default (pred outputs)) /\ o_lock o' = o_lock o /\ o_num o' = (Z.of_nat outputs - 1)%Z /\
                   o_lo o' = rep (pred outputs) (Num 0) /\ o_hi o' = rep (pred outputs) (Num 1) /\ o_locks o' = rep (pred outputs) false
    | _ => has s' (cid c') o' ps /\ same_attributes o o'
    end.
(* what a copy of an edge component is *)
Definition edge_copy (s s' : store) (c c' : comp) : Prop :=
  ccls c' = ccls c /\ cprot c' = cprot c /\ forall o ps, has s (cid c) o ps -> exists o', has s' (cid c') o' ps /\ same_attributes o o'.

(* what is rebuilt from a file: same class and parameters, everything else as in a new component *)
Definition node_loaded (s s' : store) (outputs : nat) (c c' : comp) : Prop :=
  ccls c' = ccls c /\ cprot c' = false /\
  forall o ps, has s (cid c) o ps -> exists o', has s' (cid c') o' ps /\ same_attributes (new_object (ccls c) outputs) o'.
Definition edge_loaded (s s' : store) (c c' : comp) : Prop :=
  ccls c' = ccls c /\ cprot c' = false /\
  forall o ps, has s (cid c) o ps -> exists o', has s' (cid c') o' ps /\ same_attributes (obj_of_spec 0 (spec_of (ccls c))) o'.

(* every component class can be found by its name when loading *)
Definition loadable (g : graph) : Prop :=
  forall c, In c (components g) -> ccls c <> FrequencySplitter /\ ccls c <> IntegratedSplitAndDelayLine.
(* the library offers only classes that can be found by name *)
Definition library_loadable (L : library) : Prop :=
  forall c, In c (source_models L) \/ In c (sink_models L) \/ In c (edge_models L) \/ In c (node_models L) ->
    c <> FrequencySplitter /\ c <> IntegratedSplitAndDelayLine.

(* everything copying and saving ask of a graph object *)
Definition savable (g : graph) (s : store) : Prop :=
  wf g /\ acyclic g /\ grouped g /\ (forall n c, model_at g n c -> can_be_node c) /\ backed g s /\ sized g s.

(* two files with the same names, parameters and connections; parallel numbers may differ *)
Definition same_entries (s s' : store) (l l' : list (nick * nat)) : Prop :=
  Forall2 (fun x x' => fst x' = fst x /\ exists ps, assoc (snd x) (s_lists s) = Some ps /\ assoc (snd x') (s_lists s') = Some ps) l l'.
Definition same_file (m : minimal) (s : store) (m' : minimal) (s' : store) : Prop :=
  same_entries s s' (m_np m) (m_np m') /\ same_entries s s' (m_ep m) (m_ep m') /\
  Forall2 (fun a a' => fst a' = fst a /\ fst (snd a') = fst (snd a)) (m_adj m) (m_adj m').
