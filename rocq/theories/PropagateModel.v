(** Model of Graph.propagate and of what reads its result.
    lib/graph.py:176-177, 285-329, 580-598.  Definitions only. *)
From Coq Require Import List Arith Bool.
From Verif Require Import Base GraphModel ParamsModel.
Import ListNotations.

Definition place_eqb (a b : place) : bool :=
  match a, b with
  | PNode n, PNode m => Nat.eqb n m
  | PEdge i, PEdge j => eid_eqb i j
  | _, _ => false
  end.

(* What the components do.  [S]: signals (numpy arrays).  [X]: everything that
   component code reads and writes besides its arguments (noise vectors, random
   generator, noise switch; see NoiseModel.v).
   node_act: model.propagate(states, propagator, in_degree, out_degree) of a node component;
   edge_act: model.propagate(state, propagator) of an edge component followed by its noise
   (graph.py:318-323). *)
Record behaviour (S X : Type) := mkBeh {
  node_act : comp -> list S -> nat -> nat -> X -> X * res (list S);
  edge_act : comp -> S -> X -> X * res S }.
Arguments mkBeh {S X}.
Arguments node_act {S X}.
Arguments edge_act {S X}.

(* the dictionary _propagator_saves; the newest entry first, so looking up finds the last
   assignment.  Keys are nodes or edge tuples; a node label that is itself equal to an edge
   tuple is not modelled. *)
Definition saves (S : Type) := list (place * S).
Definition save {S} (p : place) (x : S) (sv : saves S) : saves S := (p, x) :: sv.
Fixpoint saved {S} (sv : saves S) (p : place) : option S :=
  match sv with
  | [] => None
  | (q, x) :: r => if place_eqb p q then Some x else saved r p
  end.

Section Propagate.
Context {S X : Type}.
Variable B : behaviour S X.

(* graph.py:304-309: [propagator.state] at a node without predecessors, else the saved
   states of the incoming edges *)
Definition node_inputs (g : graph) (src : S) (sv : saves S) (n : node) : res (list S) :=
  match pre g n with
  | [] => Ok [src]
  | _ => map_res (fun e => of_option KeyError (saved sv (PEdge (e_id e)))) (get_in_edges g n)
  end.

(* graph.py:317-325: loop over the outgoing edges *)
Fixpoint send (es : list edge) (i : nat) (states : list S) (x : X) (sv : saves S) : X * saves S * res unit :=
  match es with
  | [] => (x, sv, Ok tt)
  | e :: r =>
      match nth_error states i with
      | None => (x, sv, Err IndexError)
      | Some s =>
          match edge_act B (e_model (e_dat e)) s x with
          | (x', Err er) => (x', sv, Err er)
          | (x', Ok s') => send r (Datatypes.S i) states x' (save (PEdge (e_id e)) s' sv)
          end
      end
  end.

(* graph.py:302-325: body of the loop over the nodes *)
Definition visit (g : graph) (src : S) (n : node) (x : X) (sv : saves S) : X * saves S * res unit :=
  match node_inputs g src sv n with
  | Err e => (x, sv, Err e)
  | Ok ins =>
      match node_data g n with
      | None => (x, sv, Err KeyError)
      | Some nd =>
          match node_act B (n_model nd) ins (in_degree g n) (out_degree g n) x with
          | (x', Err e) => (x', sv, Err e)
          | (x', Ok states) =>
              if Nat.eqb (get_out_degree g n) 0 then
                match states with
                | [] => (x', sv, Err IndexError)
                | s0 :: _ => send (get_out_edges g n) 0 states x' (save (PNode n) s0 sv)
                end
              else send (get_out_edges g n) 0 states x' sv
          end
      end
  end.

Fixpoint visit_all (g : graph) (src : S) (order : list node) (x : X) (sv : saves S) : X * saves S * res unit :=
  match order with
  | [] => (x, sv, Ok tt)
  | n :: r =>
      match visit g src n x sv with
      | (x', sv', Err e) => (x', sv', Err e)
      | (x', sv', Ok _) => visit_all g src r x' sv'
      end
  end.

(* graph.py:291-326 along a given order; the dictionary is emptied first (line 299), whatever
   [old] was *)
Definition propagate_along (g : graph) (order : list node) (src : S) (x : X) (old : saves S) : X * saves S * res unit :=
  visit_all g src order x [].

(* with the order of nx.topological_sort.  networkx finds a cycle only after it has handed out
   the nodes before it; the states saved for these are not modelled (the graphs the code builds
   are acyclic, C01) *)
Definition propagate (g : graph) (src : S) (x : X) (old : saves S) : X * saves S * res unit :=
  match topological_sort g with
  | None => (x, [], Err Unfeasible)
  | Some o => propagate_along g o src x old
  end.
End Propagate.

(* graph.py:328-329 *)
Definition measure {S} (sv : saves S) (p : place) : res S := of_option KeyError (saved sv p).

(* graph.py:580-598: the states that are plotted, in order; [order] is the attribute
   _propagation_order *)
Definition inspect_state {S} (order : list node) (sv : saves S) : res (list S) :=
  map_res (fun n => measure sv (PNode n)) (rev order).

(* graph.py:176-177 *)
Definition clear_propagation {S} (sv : saves S) : saves S := [].
