(** Specification vocabulary for graphs.  It only looks at the node list and the
    edge list of a graph, never at the model's algorithms. *)
From Coq Require Import List Arith Relations Permutation.
From Verif Require Import GraphModel.
Import ListNotations.

(* there is a component going directly from u to v *)
Definition connects (g : graph) (u v : node) : Prop :=
  exists e, In e (g_edges g) /\ e_src e = u /\ e_dst e = v.

(* directed walk of any length / of length at least one *)
Definition path (g : graph) : node -> node -> Prop := clos_refl_trans node (connects g).
Definition path1 (g : graph) : node -> node -> Prop := clos_trans node (connects g).

Definition acyclic (g : graph) : Prop := forall n, ~ path1 g n n.

Definition is_node (g : graph) (n : node) : Prop := exists d, In (n, d) (g_nodes g).

(* what networkx guarantees of every MultiDiGraph *)
Record wf (g : graph) : Prop := {
  wf_nodes : NoDup (map fst (g_nodes g));
  wf_ends : forall e, In e (g_edges g) -> is_node g (e_src e) /\ is_node g (e_dst e);
  wf_keys : NoDup (map (fun e => (e_src e, e_dst e, e_key e)) (g_edges g)) }.

(* terminals *)
Definition no_input (g : graph) (n : node) : Prop :=
  is_node g n /\ forall e, In e (g_edges g) -> e_dst e <> n.
Definition no_output (g : graph) (n : node) : Prop :=
  is_node g n /\ forall e, In e (g_edges g) -> e_src e <> n.
Definition inner (g : graph) (n : node) : Prop :=
  is_node g n /\ ~ no_input g n /\ ~ no_output g n.

(* number of components arriving at / leaving a node *)
Definition arrivals (g : graph) (n : node) : nat :=
  length (filter (fun e => Nat.eqb (e_dst e) n) (g_edges g)).
Definition departures (g : graph) (n : node) : nat :=
  length (filter (fun e => Nat.eqb (e_src e) n) (g_edges g)).

(* the component object sitting on a node *)
Definition model_at (g : graph) (n : node) (c : comp) : Prop :=
  exists d, In (n, d) (g_nodes g) /\ n_model d = c.

(* all components, as objects *)
Definition components (g : graph) : list comp :=
  map (fun p => n_model (snd p)) (g_nodes g) ++ map (fun e => e_model (e_dat e)) (g_edges g).
Definition protected_components (g : graph) : list comp := filter cprot (components g).

(* the multiset of (from, to, component) connections, ignoring keys *)
Definition connection (e : edge) : node * node * comp := (e_src e, e_dst e, e_model (e_dat e)).
Definition connections (g : graph) : list (node * node * comp) := map connection (g_edges g).
(* the (label, component) pairs of the nodes *)
Definition node_models_of (g : graph) : list (node * comp) :=
  map (fun p => (fst p, n_model (snd p))) (g_nodes g).

(* an order of the nodes in which every component points forward *)
Definition valid_order (g : graph) (o : list node) : Prop :=
  Permutation o (map fst (g_nodes g)) /\
  forall l1 n l2 m, o = l1 ++ n :: l2 -> connects g n m -> In m l2.
