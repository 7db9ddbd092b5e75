(** Where autograd's tracers (ArrayBox) are in a graph.
    lib/graph.py:122-144, 176-177, 291-326, 525-573; lib/autodiff_helpers.py:3-12;
    algorithms/parameter_optimization.py:21-256; algorithms/topology_optimization.py:539-566;
    lib/minimal_save.py:29-53; simulator/fiber/evaluator_subclasses/evaluator_phase_sensitivity.py:22-46.
    Definitions only.  Values are left out: a number is known here by the traces it belongs to. *)
From Coq Require Import List Arith Bool.
From Verif Require Import Base GraphModel ParamsModel PropagateModel PhaseModel.
Import ListNotations.

(* A number, or an array of numbers: the levels of the traces whose ArrayBox it is, [] for a plain
   one.  autograd numbers the traces by how many are open when they start; [L] below is that
   number.  Once a trace is closed its number is used again, but the boxes stay boxes. *)
Definition mark := list nat.
(* the marks of the entries of the parameter lists: list identity (ParamsModel.v), index *)
Definition marks := nat -> nat -> mark.
Definition set_mark (m : marks) (l k : nat) (a : mark) : marks :=
  fun l' k' => if Nat.eqb l l' && Nat.eqb k k' then a else m l' k'.

Record world := mkW {
  w_store : store;              (* the component objects and their parameter lists *)
  w_marks : marks;
  w_saves : saves mark;         (* _propagator_saves *)
  w_gain : list (nat * mark) }. (* what an OpticalAmplifier remembers: _last_gain and the attributes
                                   of set_parameters_as_attr, by object *)

(* What the code of the components does to marks, given the marks of the parameters and of the
   inputs.  Node components: inputs, in degree, out degree.  Edge components with their noise.
   nm_gain: single_path.py:457, 503, 516. *)
Record numerics := mkNum {
  nm_node : comp -> list mark -> list mark -> nat -> nat -> res (list mark);
  nm_edge : comp -> list mark -> mark -> res mark;
  nm_gain : comp -> list mark -> mark -> mark }.

(* model.parameters: base_classes.py:37-39 *)
Definition param_marks (w : world) (c : comp) : res (list mark) :=
  do o <- get_obj (w_store w) (cid c); do ps <- get_list (w_store w) (o_list o);
  Ok (map (w_marks w (o_list o)) (seq 0 (length ps))).

(* the components as graph.propagate calls them (graph.py:311, 318-323); the amplifier writes what
   it remembers before anything reads it *)
Definition simulator (N : numerics) (w : world) : behaviour mark (list (nat * mark)) :=
  mkBeh (fun c ins i o x => (x, do ps <- param_marks w c; nm_node N c ps ins i o))
        (fun c s x => match param_marks w c with
                      | Err e => (x, Err e)
                      | Ok ps => (if cls_eqb (ccls c) OpticalAmplifier then put (cid c) (nm_gain N c ps s) x else x,
                                  nm_edge N c ps s)
                      end).

(* graph.propagate(propagator), graph.py:291-326; propagator.state is a plain array *)
Definition simulate (N : numerics) (g : graph) (w : world) : world * res unit :=
  let '(x, sv, r) := propagate (simulator N w) g [] (w_gain w) (w_saves w) in
  (mkW (w_store w) (w_marks w) sv x, r).

(* graph.py:176-177 *)
Definition clear (w : world) : world := mkW (w_store w) (w_marks w) (clear_propagation (w_saves w)) (w_gain w).

(* graph.py:569-573 with the marks of the values; zip stops at the shortest list *)
Fixpoint hand_out (xs : list mark) (models idx : list nat) (s : store) (m : marks) : res marks :=
  match xs, models, idx with
  | a :: xr, i :: ir, k :: kr =>
      do o <- get_obj s i; do ps <- get_list s (o_list o);
      if Nat.ltb k (length ps) then hand_out xr ir kr s (set_mark m (o_list o) k a) else Err IndexError
  | _, _, _ => Ok m
  end.

(* the evaluators: those that compute the score from the saved states, and PhaseSensitivity,
   which traces a simulation of its own *)
Inductive evaluator := Reads (f : saves mark -> res mark) | Sensitivity (sink : node).

Definition add (L : nat) (a : mark) : mark := L :: a.
Definition drop (L : nat) (a : mark) : mark := filter (fun l => negb (Nat.eqb l L)) a.

(* model.parameters = [x]: a new list with one entry (evaluator_phase_sensitivity.py:25, 45) *)
Definition assign (w : world) (i : nat) (v : pval) (a : mark) : res world :=
  do s <- assign_parameters (w_store w) i [v];
  Ok (mkW s (set_mark (w_marks w) (fresh_key (s_lists (w_store w))) 0 a) (w_saves w) (w_gain w)).

(* PhaseSensitivity.evaluate_graph, lines 22-46, while L traces are open.  The derivative that
   grad returns carries the traces of the value of the function, without the new one. *)
Definition sensitivity (N : numerics) (g : graph) (sink : node) (L : nat) (w : world) : world * res mark :=
  match phase_models g with
  | [c] =>
      match (do o <- get_obj (w_store w) (cid c); do ps <- get_list (w_store w) (o_list o); do v <- at_ ps 0; Ok (v, w_marks w (o_list o) 0)) with
      | Err e => (w, Err e)
      | Ok (v, phase) =>
          match assign w (cid c) v (add L phase) with
          | Err e => (w, Err e)
          | Ok w1 =>
              match simulate N g w1 with
              | (w2, Err e) => (w2, Err e)
              | (w2, Ok _) =>
                  match measure (w_saves w2) (PNode sink) with
                  | Err e => (w2, Err e)
                  | Ok state =>
                      match assign w2 (cid c) v phase with
                      | Err e => (w2, Err e)
                      | Ok w3 => (w3, Ok (drop L state))
                      end
                  end
              end
          end
      end
  | _ => (w, Err RuntimeError)
  end.
Definition evaluate (N : numerics) (ev : evaluator) (g : graph) (L : nat) (w : world) : world * res mark :=
  match ev with
  | Reads f => (w, f (w_saves w))
  | Sensitivity sink => sensitivity N g sink L w
  end.

(* graph.func, graph.py:122-136, while L traces are open; models and idx were read when the
   function was made *)
Definition func (N : numerics) (ev : evaluator) (g : graph) (models idx : list nat) (L : nat) (w : world) (xs : list mark) : world * res mark :=
  match hand_out xs models idx (w_store w) (w_marks w) with
  | Err e => (w, Err e)   (* simplification: the entries written before the exception are left out *)
  | Ok m =>
      match simulate N g (mkW (w_store w) m (w_saves w) (w_gain w)) with
      | (w1, Err e) => (w1, Err e)
      | (w1, Ok _) => evaluate N ev g L w1
      end
  end.

(* graph.grad and graph.hess, graph.py:138-142: the function is evaluated once, at a vector that is
   traced once (grad) or twice (the jacobian of the jacobian).  The entries of the result carry
   the traces of the score, without the new ones. *)
Definition gradient (N : numerics) (ev : evaluator) (g : graph) (models idx : list nat) (L : nat) (w : world) (xs : list mark) : world * res mark :=
  let '(w1, r) := func N ev g models idx (S L) w (map (add L) xs) in
  (w1, do a <- r; Ok (drop L a)).
Definition hessian (N : numerics) (ev : evaluator) (g : graph) (models idx : list nat) (L : nat) (w : world) (xs : list mark) : world * res mark :=
  let '(w1, r) := func N ev g models idx (S (S L)) w (map (fun a => add (S L) (add L a)) xs) in
  (w1, do a <- r; Ok (drop L (drop (S L) a))).

(* the vector that extract_parameters_to_list returns, graph.py:552-567: a new list, in which
   unwrap_arraybox_list (autodiff_helpers.py:3-7) replaces every ArrayBox by its value *)
Definition unwrap (xs : list mark) : list mark := map (fun _ => []) xs.
Definition read_vector (w : world) (models idx : list nat) : res (list mark) :=
  do xs <- map_res (fun p => do o <- get_obj (w_store w) (fst p); Ok (w_marks w (o_list o) (snd p))) (combine models idx);
  Ok (unwrap xs).

(* what a method of parameters_optimize does.  NULL returns the vector it was given and its score
   (parameter_optimization.py:67-69).  The others call graph.func and graph.grad at vectors of plain
   numbers and then distribute their solution: the calls in their order, and whether they return
   graph.func(x) of the solution x (all but PSO and GA: lines 62-65, 92-95, 125-128, 156-159,
   194-196, 209-211, 235-237) or one of the scores they have seen (lines 175-177, 252-254) *)
Inductive ask := AskFunc | AskGrad.
Inductive method := Null | Search (calls : list ask) (again : bool) (score : nat).

Section Optimise.
Variables (N : numerics) (ev : evaluator) (g : graph) (models idx : list nat).
Let plain_vector : list mark := repeat [] (length models).
(* the marks of the scores in the order of the calls *)
Fixpoint asks (cs : list ask) (w : world) : world * res (list mark) :=
  match cs with
  | [] => (w, Ok [])
  | AskFunc :: r =>
      match func N ev g models idx 0 w plain_vector with
      | (w1, Err e) => (w1, Err e)
      | (w1, Ok a) => let '(w2, q) := asks r w1 in (w2, do l <- q; Ok (a :: l))
      end
  | AskGrad :: r =>
      match gradient N ev g models idx 0 w plain_vector with
      | (w1, Err e) => (w1, Err e)
      | (w1, Ok _) => asks r w1
      end
  end.

(* parameters_optimize, parameter_optimization.py:21-256, with a non-empty vector x0: the solution
   and its score.  The drawing of new parameters by the method CHEAP is left out: the solution
   replaces them. *)
Definition optimise (me : method) (x0 : list mark) (w : world) : world * res (list mark * mark) :=
  match me with
  | Null => let '(w1, r) := func N ev g models idx 0 w x0 in (w1, do a <- r; Ok (x0, a))
  | Search calls again score =>
      match asks calls w with
      | (w1, Err e) => (w1, Err e)
      | (w1, Ok scores) =>
          match hand_out plain_vector models idx (w_store w1) (w_marks w1) with
          | Err e => (w1, Err e)
          | Ok m =>
              let w2 := mkW (w_store w1) m (w_saves w1) (w_gain w1) in
              if again then let '(w3, r) := func N ev g models idx 0 w2 plain_vector in (w3, do a <- r; Ok (plain_vector, a))
              else (w2, do a <- at_ scores score; Ok (plain_vector, a))
          end
      end
  end.
End Optimise.

(* graph.update_graph(), graph.py:90-97: new lists hold plain numbers *)
Definition refresh (g : graph) (w : world) : res world :=
  do s <- update_graph g (w_store w);
  Ok (mkW s (fun l k => if mem l (map fst (s_lists (w_store w))) then w_marks w l k else []) (w_saves w) (w_gain w)).

(* parameters_optimize_complete, topology_optimization.py:539-562, for a score that is None: the
   score, and the matrix that is kept with the graph *)
Definition complete (N : numerics) (ev : evaluator) (g : graph) (me : method) (w : world) : world * res (mark * option mark) :=
  match refresh g w with
  | Err e => (w, Err e)
  | Ok w0 =>
      let w1 := clear w0 in
      match extract g (w_store w1) with
      | Err e => (w1, Err e)
      | Ok x =>
          let models := x_models x in
          let idx := x_index x in
          match read_vector w1 models idx with
          | Err e => (w1, Err e)
          | Ok [] => let '(w2, r) := func N ev g models idx 0 w1 [] in (w2, do a <- r; Ok (a, None))
          | Ok x0 =>
              match optimise N ev g models idx me x0 w1 with
              | (w2, Err e) => (w2, Err e)
              | (w2, Ok (xs, score)) =>
                  match hessian N ev g models idx 0 w2 xs with
                  | (w3, Err e) => (w3, Err e)
                  | (w3, Ok h) =>
                      match func N ev g models idx 0 w3 xs with
                      | (w4, Err e) => (w4, Err e)
                      | (w4, Ok _) => (w4, Ok (score, Some h))
                      end
                  end
              end
          end
      end
  end.

(* json.dump of extract_minimal_graph_info, minimal_save.py:29-53: the parameter lists of all
   components as they are; an ArrayBox is no number for json *)
Definition save_parameters (g : graph) (w : world) : res unit :=
  do ls <- map_res (fun m => param_marks w (fst m)) (get_models g);
  if forallb (fun l => forallb (fun a => match a with [] => true | _ => false end) l) ls then Ok tt else Err TypeError.
