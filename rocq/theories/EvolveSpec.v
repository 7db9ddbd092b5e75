(** Specification vocabulary for runs of evolve_graph. *)
From Coq Require Import List Arith Bool ZArith QArith Permutation.
From Verif Require Import Base GraphModel GraphSpec OperatorsModel OperatorsSpec ParamsModel ParamsSpec EvolverModel EvolverSpec.
Import ListNotations.
Local Open Scope nat_scope.

(* one call of evolve_graph: the evolver (with its current weights), the generation, the random numbers *)
Record call := mkCall { c_ev : evolver; c_gen : option Q; c_ch : chance }.
Definition do_call (L : library) (ops : list op) (w : world) (c : call) : world * res op :=
  evolve_graph L ops (c_ev c) (c_gen c) w (c_ch c).

(* any sequence of calls on the same graph object, with the world before, the outcome and the world after each *)
Inductive calls (L : library) (ops : list op) : world -> list (world * call * res op * world) -> world -> Prop :=
| calls_nil : forall w, calls L ops w [] w
| calls_cons : forall w c w' r h w'', do_call L ops w c = (w', r) -> calls L ops w' h w'' ->
    calls L ops w ((w, c, r, w') :: h) w''.

(* the random numbers are what the libraries promise: a uniform draw in [0,1), a shuffle that
   permutes, components that are new and of a class the chosen operator may use *)
Definition fair (L : library) (ops : list op) (w : world) (c : call) : Prop :=
  (0 <= ch_u (c_ch c))%Q /\ (ch_u (c_ch c) < 1)%Q /\ (forall l, Permutation (ch_shuffle (c_ch c) l) l) /\
  forall l o, pick L ops (prepare (c_ev c) (c_gen c)) (w_graph w) (w_store w) (w_hess w) (ch_shuffle (c_ch c)) (ch_u (c_ch c)) = Ok (l, o) ->
    draws_ok L o (w_graph w) l (ch_draws (c_ch c)).

(* every node and edge component is a distinct object *)
Definition distinct_objects (g : graph) : Prop := NoDup (map cid (components g)).

(* a well-formed, acyclic, well-typed graph whose free parameters can be read and are within bounds *)
Definition sound (w : world) : Prop :=
  wf (w_graph w) /\ acyclic (w_graph w) /\ typed (w_graph w) /\ all_readable (w_graph w) (w_store w) /\ all_within (w_graph w) (w_store w).

(* no two component objects of the process share a parameter list *)
Definition separate (s : store) : Prop :=
  (forall i o, assoc i (s_objs s) = Some o -> In (o_list o) (map fst (s_lists s))) /\
  (forall i j o o', assoc i (s_objs s) = Some o -> assoc j (s_objs s) = Some o' -> o_list o = o_list o' -> i = j).

(* everything the later theorems ask of a graph object *)
Definition healthy (w : world) : Prop :=
  sound w /\ distinct_objects (w_graph w) /\ unshared (w_graph w) (w_store w) /\ all_sampleable (w_graph w) (w_store w).

Definition with_store (w : world) (s : store) : world := mkW (w_graph w) s (w_cur w) (w_parent w) (w_mut w) (w_hess w).
Definition with_hess (w : world) (h : option matrix) : world := mkW (w_graph w) (w_store w) (w_cur w) (w_parent w) (w_mut w) h.

Definition in_bounds (vs los his : list pval) : Prop :=
  length vs = length los /\ length vs = length his /\
  forall k v lo hi, nth_error vs k = Some v -> nth_error los k = Some lo -> nth_error his k = Some hi ->
    exists x a b, v = Num x /\ lo = Num a /\ hi = Num b /\ (a <= x)%Q /\ (x <= b)%Q.

(* anything a user or an optimiser does to a graph object: evolve it, draw random parameters,
   write a vector that respects the bounds, store a Hessian, call update_graph *)
Inductive session (L : library) (ops : list op) (w0 : world) : world -> Prop :=
| ses_start : session L ops w0 w0
| ses_evolve : forall w c w' r, session L ops w0 w -> fair L ops w c -> do_call L ops w c = (w', r) -> session L ops w0 w'
| ses_sample : forall w d rs s', session L ops w0 w -> frac_ok rs -> sample_parameters d (w_graph w) (w_store w) rs = Ok s' ->
    session L ops w0 (with_store w s')
| ses_write : forall w x vs s', session L ops w0 w -> extract (w_graph w) (w_store w) = Ok x ->
    in_bounds vs (x_lo x) (x_hi x) -> distribute vs (x_models x) (x_index x) (w_store w) = Ok s' ->
    session L ops w0 (with_store w s')
| ses_hess : forall w h, session L ops w0 w -> session L ops w0 (with_hess w h)
| ses_update : forall w s', session L ops w0 w -> update_graph (w_graph w) (w_store w) = Ok s' -> session L ops w0 (with_store w s').
