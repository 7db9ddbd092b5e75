(** Specification vocabulary for propagation: the data-flow equations, and what it means for
    components to be settled. *)
From Coq Require Import List Arith Bool.
From Verif Require Import Base GraphModel GraphSpec ParamsModel PropagateModel.
Import ListNotations.

(* the components of g leave their surroundings as they are *)
Definition steady {S X} (B : behaviour S X) (g : graph) (x : X) : Prop :=
  (forall n c, model_at g n c -> forall ss i o, fst (node_act B c ss i o x) = x) /\
  (forall e, In e (g_edges g) -> forall s, fst (edge_act B (e_model (e_dat e)) s x) = x).

(* the order in which the connections arrive at or leave a node: nodes in list order, then the
   connections of that pair *)
Definition arriving (g : graph) (n : node) : list edge :=
  flat_map (fun m => filter (fun e => Nat.eqb (e_src e) m && Nat.eqb (e_dst e) n) (g_edges g)) (map fst (g_nodes g)).
Definition leaving (g : graph) (n : node) : list edge := filter (fun e => Nat.eqb (e_src e) n) (g_edges g).

(* what node n receives when the edges carry [val] *)
Definition received {S} (g : graph) (src : S) (val : edge -> S) (n : node) : list S :=
  match arriving g n with [] => [src] | es => map val es end.

(* [val] and [out] solve the equations of the graph:
   each node component turns what it receives into a list of states, the i-th leaving
   component turns the i-th of them into the value of its edge, and a node without
   connections leaving it reports its first state *)
Definition solves {S X} (B : behaviour S X) (x : X) (g : graph) (src : S) (val : edge -> S) (out : node -> S) : Prop :=
  forall n c, model_at g n c -> exists states,
    snd (node_act B c (received g src val n) (arrivals g n) (departures g n) x) = Ok states /\
    (departures g n = 0 -> nth_error states 0 = Some (out n)) /\
    (forall i e, nth_error (leaving g n) i = Some e -> exists s,
       nth_error states i = Some s /\ snd (edge_act B (e_model (e_dat e)) s x) = Ok (val e)).

(* the dictionary holds exactly these values *)
Definition records {S} (g : graph) (sv : saves S) (val : edge -> S) (out : node -> S) : Prop :=
  (forall e, In e (g_edges g) -> saved sv (PEdge (e_src e, e_dst e, e_key e)) = Some (val e)) /\
  (forall n, no_output g n -> saved sv (PNode n) = Some (out n)) /\
  (forall n, ~ no_output g n -> saved sv (PNode n) = None) /\
  (forall i, (forall e, In e (g_edges g) -> (e_src e, e_dst e, e_key e) <> i) -> saved sv (PEdge i) = None).
