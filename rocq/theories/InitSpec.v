(** What building a graph from dictionaries should do. *)
From Coq Require Import List Arith Bool Relations.
From Verif Require Import GraphModel.
Import ListNotations.

(* the models requested between u and v, in the order they were written *)
Definition requested (edges : list (eid * comp)) (u v : node) : list comp :=
  map snd (filter (fun p => match p with ((a, b, _), _) => Nat.eqb a u && Nat.eqb b v end) edges).

(* the requested wiring *)
Definition wants (edges : list (eid * comp)) (u v : node) : Prop :=
  exists k c, In ((u, v, k), c) edges.

Definition wants_cycle (edges : list (eid * comp)) : Prop :=
  exists n, clos_trans node (wants edges) n n.

Definition declared (nodes : list (node * comp)) (n : node) : Prop := In n (map fst nodes).

(* connectors and terminals can sit on nodes *)
Definition can_be_node (c : comp) : Prop :=
  family_of (ccls c) = MultiPath \/ family_of (ccls c) = TermSource \/ family_of (ccls c) = TermSink.

(* keys and models of the edges from u to v, in the graph's own order *)
Definition between (g : graph) (u v : node) : list (key * comp) :=
  map (fun e => (e_key e, e_model (e_dat e)))
      (filter (fun e => Nat.eqb (e_src e) u && Nat.eqb (e_dst e) v) (g_edges g)).

Definition numbered (l : list comp) : list (key * comp) := combine (seq 0 (length l)) l.
