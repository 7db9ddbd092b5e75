(** Model of parameters_optimize, algorithms/parameter_optimization.py:21-257.  Definitions only.
    The external optimisers (scipy, pyswarm, cma) and adam_bounded are arbitrary strategies: trees
    of questions to the objective and its gradient.  Simplifications: evaluating the graph is a function of its
    parameters (no noise, or noise switched off), printing is left out, and
    the wrapping of numbers by autograd is left out. *)
From Coq Require Import List Arith Bool ZArith QArith Qround.
From Verif Require Import Base GraphModel ParamsModel FloatModel GAModel LoggerModel.
Import ListNotations.
Local Open Scope nat_scope.

Notation vec := (list pval).

(* an optimiser: it asks for values or gradients and finally returns a vector and the value it
   believes to hold there, or raises *)
Inductive strategy :=
| Return (x : vec) (f : fl)
| Raise (e : exn)
| AskF (x : vec) (k : fl -> strategy)
| AskG (x : vec) (k : vec -> strategy).

(* the graph's parameters and the logger, None without log_callback *)
Record world := mkWorld { o_store : store; o_log : option logger }.

Fixpoint run (ff : vec -> world -> world * res fl) (gg : vec -> world -> world * res vec) (t : strategy) (w : world) : world * res (vec * fl) :=
  match t with
  | Return x f => (w, Ok (x, f))
  | Raise e => (w, Err e)
  | AskF x k => match ff x w with (w', Ok v) => run ff gg (k v) w' | (w', Err e) => (w', Err e) end
  | AskG x k => match gg x w with (w', Ok d) => run ff gg (k d) w' | (w', Err e) => (w', Err e) end
  end.

(* the strings of lines 51-254 *)
Inductive method := M_LBFGS | M_NULL | M_LBFGS_PSO | M_LBFGS_GA | M_CHEAP | M_PSO | M_CMA | M_ADAM | M_ADAM_GA | M_GA | M_Other.

Section Optimise.
(* propagation and evaluation of the graph holding the given parameters, and the gradient there *)
Variable eval : store -> res fl.
Variable gradient : store -> res vec.
(* the optimisers: scipy's L-BFGS-B with maxiter, pyswarm with swarm size and iterations, cma, adam_bounded with num_iters *)
Variable lbfgs : nat -> vec -> list pval -> list pval -> strategy.
Variable pso : nat -> nat -> list pval -> list pval -> strategy.
Variable cma : vec -> list pval -> list pval -> strategy.
Variable adam : nat -> list pval -> list pval -> vec -> strategy.
(* the genetic search: sorting and random numbers *)
Variable sort : list (fl * vec) -> list (fl * vec).
Variable lucks : nat -> ga_luck.
Variable rs : nat -> nat -> nat -> rnd.       (* sample_parameters_to_list: generation, call, parameter *)
Variable rs_cheap : nat -> rnd.               (* sample_parameters in the CHEAP method *)
(* keyword arguments with their defaults: swarm_size, iter_swarm, population_size, n_generations, maxiter *)
Record options := mkOpt { k_swarm : nat; k_iter : nat; k_pop : nat; k_gens : nat; k_maxiter : nat }.
Variable kw : options.

Variable g : graph.
(* graph.func: the models and indices captured by initialize_func_grad_hess (lib/graph.py:122-141) *)
Variable fm fk : list nat.

(* lib/graph.py:125-129 *)
Definition func (v : vec) (w : world) : world * res fl :=
  match distribute v fm fk (o_store w) with
  | Err e => (w, Err e)
  | Ok s => (mkWorld s (o_log w), eval s)
  end.
(* lines 36-39: the objective handed to the optimisers, logged if there is a logger *)
Definition fitness (v : vec) (w : world) : world * res fl :=
  match func v w with
  | (w', Err e) => (w', Err e)
  | (w', Ok score) =>
      match o_log w' with
      | None => (w', Ok score)
      | Some lg => match log_score score lg with
                   | Err e => (w', Err e)
                   | Ok lg' => (mkWorld (o_store w') (Some lg'), Ok score)
                   end
      end
  end.
(* autograd.grad: one evaluation, then the gradient *)
Definition grad_of (f : vec -> world -> world * res fl) (v : vec) (w : world) : world * res vec :=
  match f v w with (w', Err e) => (w', Err e) | (w', Ok _) => (w', gradient (o_store w')) end.

Definition with_log (f : logger -> res logger) (w : world) : world * res unit :=
  match o_log w with
  | None => (w, Ok tt)
  | Some lg => match f lg with Ok lg' => (mkWorld (o_store w) (Some lg'), Ok tt) | Err e => (w, Err e) end
  end.
Definition set_alg (a : alg) (pop : nat) : world -> world * res unit := with_log (set_optimization_algorithm a (Z.of_nat pop)).
Definition start_time : world -> world * res unit := with_log (fun lg => Ok (start_logger_time lg)).

(* sequencing *)
Definition andthen {A B} (f : world -> world * res A) (k : A -> world -> world * res B) (w : world) : world * res B :=
  match f w with (w', Ok a) => k a w' | (w', Err e) => (w', Err e) end.

(* graph.distribute_parameters_from_list(x, models, parameter_index) *)
Definition put_back (X : extracted) (x : vec) (w : world) : world * res unit :=
  match distribute x (x_models X) (x_index X) (o_store w) with Ok s => (mkWorld s (o_log w), Ok tt) | Err e => (w, Err e) end.
(* ... then graph.func(x) *)
Definition finish (X : extracted) (x : vec) : world -> world * res (vec * fl) :=
  andthen (put_back X x) (fun _ => andthen (func x) (fun sc w => (w, Ok (x, sc)))).

(* graph.sample_parameters_to_list; bounds, types and steps do not change during the optimisation *)
Definition sample_list (X : extracted) (gen call : nat) : res vec :=
  sample_callable Uniform (x_params X) (x_lo X) (x_hi X) (x_types X) (x_steps X) (rs gen call) 0.

(* int(floor(rate * n)), without rounding of the product *)
Definition share (rate : Q) (n : nat) : nat := Z.to_nat (Qfloor (rate * inject_Z (Z.of_nat n))).

(* lines 369-372: the sorted population is logged *)
Definition note (scores : list fl) : world -> world * res unit := with_log (log_all scores).
Definition genetic (X : extracted) (crx mut : Q) (pop gens : nat) (x0 : vec) : world -> world * res (vec * fl) :=
  parameters_genetic_algorithm pval world func (sample_list X) note sort lucks (share crx pop) (share mut pop) pop gens x0.

Definition minimise (maxiter : nat) (X : extracted) (x : vec) (w : world) : world * res (vec * fl) :=
  run fitness (grad_of func) (lbfgs maxiter x (x_lo X) (x_hi X)) w.
Definition descend (iters : nat) (X : extracted) (x : vec) (w : world) : world * res (vec * fl) :=
  run fitness (grad_of fitness) (adam iters (x_lo X) (x_hi X) x) w.
Definition swarm (size iters : nat) (X : extracted) (w : world) : world * res (vec * fl) :=
  run fitness (grad_of func) (pso size iters (x_lo X) (x_hi X)) w.

(* lines 51-257 for a non-empty start vector; the result is (x, score) *)
Definition by_method (m : method) (X : extracted) (x0 : vec) : world -> world * res (vec * fl) :=
  match m with
  | M_LBFGS =>
      andthen (set_alg LBFGS 1) (fun _ => andthen start_time (fun _ => andthen (minimise 500 X x0) (fun r => finish X (fst r))))
  | M_NULL => andthen (func x0) (fun sc w => (w, Ok (x0, sc)))
  | M_LBFGS_PSO =>
      andthen (set_alg PSO (k_swarm kw)) (fun _ => andthen start_time (fun _ =>
      andthen (swarm (k_swarm kw) (k_iter kw) X) (fun r => andthen (set_alg LBFGS 1) (fun _ =>
      andthen (minimise 100 X (fst r)) (fun r => finish X (fst r))))))
  | M_LBFGS_GA =>
      andthen (set_alg GA (k_pop kw)) (fun _ => andthen start_time (fun _ =>
      andthen (genetic X (35 # 100) (8 # 10) (k_pop kw) (k_gens kw) x0) (fun r => andthen (set_alg LBFGS 1) (fun _ =>
      andthen (minimise (k_maxiter kw) X (fst r)) (fun r => finish X (fst r))))))
  | M_CHEAP => fun w =>
      match sample_parameters Uniform g (o_store w) rs_cheap with
      | Err e => (w, Err e)
      | Ok s =>
          match extract g s with
          | Err e => (mkWorld s (o_log w), Err e)
          | Ok X' =>
              andthen (set_alg LBFGS 1) (fun _ => andthen (minimise 5 X' (x_params X')) (fun r => finish X' (fst r))) (mkWorld s (o_log w))
          end
      end
  | M_PSO =>
      andthen (set_alg PSO 40) (fun _ => andthen start_time (fun _ => fun w =>
      match extract g (o_store w) with
      | Err e => (w, Err e)
      | Ok X' => andthen (swarm 40 40 X') (fun r => andthen (put_back X' (fst r)) (fun _ w => (w, Ok r))) w
      end))
  | M_CMA => fun w =>
      match extract g (o_store w) with
      | Err e => (w, Err e)
      | Ok X' =>
          (* line 186: pop_size is the list of candidates es.ask(), and np.zeros of it raises *)
          match o_log w with
          | Some _ => (w, Err TypeError)
          | None => andthen (run fitness (grad_of func) (cma x0 (x_lo X') (x_hi X'))) (fun r => finish X' (fst r)) w
          end
      end
  | M_ADAM =>
      andthen (set_alg ADAM 1) (fun _ => andthen start_time (fun _ => andthen (descend 1000 X x0) (fun r => finish X (fst r))))
  | M_ADAM_GA =>
      andthen (set_alg GA 15) (fun _ => andthen start_time (fun _ =>
      andthen (genetic X (9 # 10) (9 # 10) 15 20 x0) (fun r => andthen (set_alg ADAM 1) (fun _ =>
      andthen (descend 150 X (fst r)) (fun r => finish X (fst r))))))
  | M_GA =>
      andthen (set_alg GA 30) (fun _ => andthen start_time (fun _ =>
      andthen (genetic X (30 # 100) (9 # 10) 30 40 x0) (fun r => andthen (put_back X (fst r)) (fun _ w => (w, Ok r)))))
  | M_Other => fun w => (w, Err ModuleNotFoundError)
  end.

(* lines 21-49; [x0] as given by the caller.  The logger returned is [o_log] of the final world, except
   that without free parameters it is a new one *)
Definition parameters_optimize (x0 : option vec) (m : method) (log_callback : bool) (s : store) : world * res (vec * fl) :=
  match extract g s with
  | Err e => (mkWorld s None, Err e)
  | Ok X =>
      let x := match x0 with Some v => v | None => x_params X end in
      match x with
      | [] => andthen (func x) (fun sc w => (w, Ok (x, sc))) (mkWorld s (Some new_logger))
      | _ => by_method m X x (mkWorld s (if log_callback then Some new_logger else None))
      end
  end.
End Optimise.
