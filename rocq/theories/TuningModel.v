(** Model of the tuning utilities, algorithms/parameter_optimization_utils.py, with the logbook of
    algorithms/functions.py:18-32 and lib/hessian.py:25-28,82-95.  Definitions only.
    Simplifications: printing is left out; evaluating, simulating and resampling the graph do not write
    its parameters, and everything else they read or write (noise, its switch, random numbers, saved
    signals) is one state of any type; arithmetic of arrays is that of AdamModel; numbers that are not
    finite are kept in a parameter list as values that are not numbers; an exception while
    parameters are written leaves none of them written; sizes given as negative numbers are zero. *)
From Coq Require Import List Arith Bool ZArith QArith String.
From Verif Require Import Base GraphModel ParamsModel FloatModel FloatArith GAModel AdamModel.
Import ListNotations.
Local Open Scope string_scope.
Local Open Scope nat_scope.
Local Open Scope list_scope.

Notation vec := (list pval).

(** ** The logbook *)

(* one row: generation and the metrics of functions.py:30.  The columns 'time' and 'best' always hold -1
   and None for the calls that return. *)
Record logrow := mkLR { lr_generation : nat; lr_size : nat; lr_mean : fl; lr_var : fl; lr_max : fl; lr_min : fl }.
Definition logbook := list logrow.

(* the keyword parameters in the signature of logbook_update, functions.py:18 *)
Definition log_keywords : list string := ["time"; "best"; "verbose"].

(* functions.py:18-27; [kws] are the keywords of the call: one the signature lacks is a TypeError
   before the body runs.  np.max of no scores is a ValueError. *)
Definition logbook_update (kws : list string) (generation : nat) (scores : list fl) (log : logbook) : res logbook :=
  if negb (forallb (fun k => existsb (String.eqb k) log_keywords) kws) then Err TypeError
  else match scores with
       | [] => Err ValueError
       | a :: r => Ok (log ++ [mkLR generation (List.length scores) (fmean scores) (fvar scores)
                                    (fold_left np_max r a) (fold_left np_min r a)])
       end.

(** ** Recombination *)

(* np.random.choice(l, num, replace=False): [pick] decides each draw from those left *)
Fixpoint choose (pick : nat -> nat) (num : nat) (left : list nat) : list nat :=
  match num with
  | O => []
  | S k => match nth_error left (Nat.modulo (pick 0) (List.length left)) with
           | None => []
           | Some x => x :: choose (fun i => pick (S i)) k (remove Nat.eq_dec x left)
           end
  end.

(* lines 63-74.  np.random.randint(1, len(mutant)) raises below two entries *)
Definition mutation (parent mutant : vec) (r : nat) (pick : nat -> nat) : res vec :=
  let n := List.length mutant in
  if n <=? 1 then Err ValueError
  else
    let num := 1 + Nat.modulo r (n - 1) in
    Ok (mix_genes (choose pick num (seq 0 n)) 0 parent mutant).

(* a crossover operator: generation, round, parents; a list of children *)
Definition crossing := nat -> nat -> vec -> vec -> res (list vec).
(* lines 42-51, the same as parameter_optimization.py:377-384 *)
Definition singlepoint (cut : nat -> nat -> nat) : crossing :=
  fun gen i p1 p2 => let c := crossover_singlepoint p1 p2 (cut gen i) in Ok [fst c; snd c].
(* lines 54-60 *)
Definition doublepoint (cut : nat -> nat -> nat * nat) : crossing :=
  fun gen i p1 p2 => do c <- crossover_doublepoint p1 p2 (fst (cut gen i)) (snd (cut gen i)); Ok [fst c; snd c].

(** ** Numbers in lists and in arrays *)

Definition number_of (v : pval) : res fl := match v with Num q => Ok (Fin q) | Sym _ => Err TypeError end.
Definition value_of (a : fl) : pval :=
  match a with Fin q => Num q | PInf => Sym 1000 | NInf => Sym 1001 | NaN => Sym 1002 end.
Fixpoint numbers (l : vec) : res arr :=
  match l with [] => Ok [] | v :: r => do a <- number_of v; do q <- numbers r; Ok (a :: q) end.

(** ** Acting on the graph *)

Section Tuning.
Variable M : Type.
(* the graph's parameters, and everything else *)
Record world := mkT { t_store : store; t_more : M }.
Definition act (A : Type) := world -> world * res A.

(* AdditiveNoise.simulate_with_noise = b *)
Variable switch : bool -> M -> M.
(* evaluator.evaluate_graph(graph, propagator), graph.propagate(propagator), graph.resample_all_noise() *)
Variable evaluate : store -> M -> M * res fl.
Variable simulate : store -> M -> M * res unit.
Variable resample : store -> M -> M * res unit.
(* the gradient or Hessian autograd finds after the function returned *)
Variable slope : store -> M -> res arr.
(* np.sqrt, np.linalg.norm *)
Variable root : fl -> fl.
Variable norm : arr -> fl.
(* list.sort on (score, parameters) tuples *)
Variable sort : list (fl * vec) -> res (list (fl * vec)).
Variable g : graph.
(* random numbers of sample_parameters_to_list: generation (0 for the first population), call, parameter *)
Variable rs : nat -> nat -> nat -> rnd.

Definition ret {A} (a : A) : act A := fun w => (w, Ok a).
Definition give {A} (r : res A) : act A := fun w => (w, r).
Definition andthen {A B} (f : act A) (k : A -> act B) : act B :=
  fun w => match f w with (w', Ok a) => k a w' | (w', Err e) => (w', Err e) end.
Notation "'get' x <~ e ;; k" := (andthen e (fun x => k)) (at level 200, x name, e at level 100, k at level 200, right associativity).

Definition lift {A} (f : store -> M -> M * res A) : act A :=
  fun w => let p := f (t_store w) (t_more w) in (mkT (t_store w) (fst p), snd p).
Definition set_noise (b : bool) : act unit := fun w => (mkT (t_store w) (switch b (t_more w)), Ok tt).
Definition read : act extracted := fun w => (w, extract g (t_store w)).
(* graph.distribute_parameters_from_list, lib/graph.py:569-573 *)
Definition spread (v : vec) (models idx : list nat) : act unit :=
  fun w => match distribute v models idx (t_store w) with Ok s => (mkT s (t_more w), Ok tt) | Err e => (w, Err e) end.
Definition resample_if (b : bool) : act unit := if b then lift resample else ret tt.
(* graph.sample_parameters_to_list, lib/graph.py:497-507 *)
Definition sample_list (d : dist) (gen call : nat) : act vec :=
  get x <~ read ;; give (sample_callable d (x_params x) (x_lo x) (x_hi x) (x_types x) (x_steps x) (rs gen call) 0).

Fixpoint each {A B} (f : A -> act B) (l : list A) : act (list B) :=
  match l with
  | [] => ret []
  | a :: r => get b <~ f a ;; get q <~ each f r ;; ret (b :: q)
  end.

(** ** The first population and one score *)

(* lines 77-105 *)
Definition first_one (d : dist) (per : bool) (x : extracted) (k : nat) : act (fl * vec) :=
  get _ <~ resample_if per ;;
  get v <~ sample_list d 0 k ;;
  get _ <~ spread v (x_models x) (x_index x) ;;
  get sc <~ lift evaluate ;;
  ret (sc, v).
Definition initial_population (n : nat) (d : dist) (per : bool) : act (list (fl * vec) * extracted) :=
  get x <~ read ;;
  get p <~ each (first_one d per x) (seq 0 n) ;;
  ret (p, x).

(* lines 107-129: a RuntimeWarning is raised again after the bounds were read for printing *)
Definition individual_score (v : vec) (x : extracted) : act fl :=
  fun w =>
    match (get _ <~ spread v (x_models x) (x_index x) ;; lift evaluate) w with
    | (w', Err RuntimeWarning) => match extract g (t_store w') with Ok _ => (w', Err RuntimeWarning) | Err e => (w', Err e) end
    | r => r
    end.

(** ** lib/hessian.py *)

Inductive column := Ids (l : list nat) | Places (l : list place).
Definition info := list (string * column).

(* extract_attributes_to_list_experimental([], get_location_indices, get_node_edge_index), lib/graph.py:525-550 *)
Definition extract_info (locations places : bool) (s : store) : res info :=
  do x <- extract g s;
  Ok ((if locations then [("models", Ids (x_models x)); ("parameter_index", Ids (x_index x))] else [])
      ++ (if places then [("node_edge_index", Places (x_place x))] else [])).
Definition entry (k : string) (i : info) : res column :=
  match find (fun p => String.eqb k (fst p)) i with Some p => Ok (snd p) | None => Err KeyError end.

(* distribute_parameters_from_list with whatever lists are given: names of nodes have no parameters *)
Definition spread_columns (v : vec) (models idx : column) : act unit :=
  match models, idx with
  | Ids m, Ids k => spread v m k
  | Places (_ :: _), Ids (_ :: _) => match v with [] => ret tt | _ => give (Err AttributeError) end
  | Places _, Ids _ => ret tt
  | _, Places _ => match v with [] => ret tt | _ => give (Err TypeError) end
  end.

(* hessian.py:82-95: [function_wrapper] makes the function, which looks its entries up when it is called *)
Definition function_wrapper (s : store) : res (vec -> act fl) :=
  do i <- extract_info true false s;
  Ok (fun v =>
    get m <~ give (entry "node_edge_index" i) ;;
    get k <~ give (entry "parameter_index" i) ;;
    get _ <~ spread_columns v m k ;;
    get _ <~ lift simulate ;;
    lift evaluate).

(* autograd's grad, hessian: the function runs first, its exceptions are passed on *)
Definition derivative (f : vec -> act fl) (x : arr) : act arr :=
  get _ <~ f (map value_of x) ;; fun w => (w, slope (t_store w) (t_more w)).
(* hessian.py:25-28 *)
Definition get_hessian (s : store) : res (arr -> act arr) := do f <- function_wrapper s; Ok (derivative f).

(** ** Adam *)

Section Descent.
Variable grad : arr -> act arr.
Variable st : settings.
Variable lo hi : arr.

(* lines 280-299 *)
Fixpoint descend (todo i : nat) (x m v : arr) : act (arr * nat * arr * arr) :=
  match todo with
  | O => ret (x, a_iters st, m, v)
  | S t =>
      get d <~ grad x ;;
      get m' <~ give (moment1 st d m) ;;
      get v' <~ give (moment2 st d v) ;;
      get step <~ give (the_step root st i m' v') ;;
      get x' <~ give (zip_with fsub x step) ;;
      if period st =? 0 then give (Err ZeroDivisionError)
      else
        get y <~ give (clip x' lo hi) ;;
        if (Nat.modulo i (period st) =? period st - 1) && fltb (norm step) (a_thresh st) then ret (y, i, m', v')
        else descend t (S i) y m' v'
  end.
End Descent.

(* lines 244-299 *)
Definition adam_bounded (grad : arr -> act arr) (st : settings) (lower upper x : arr) (m v : option arr) : act (arr * nat * arr * arr) :=
  get delta <~ give (margin lower upper) ;;
  get lo <~ give (zip_with fadd lower delta) ;;
  get hi <~ give (zip_with fsub upper delta) ;;
  let m0 := match m with Some a => a | None => zeros (List.length x) end in
  let v0 := match v with Some a => a | None => zeros (List.length x) end in
  descend grad st lo hi (a_iters st) 0 x m0 v0.

(* the defaults of adam_bounded, lines 244-247 *)
Definition adam_settings (check : option nat) (iters : nat) : settings :=
  mkAS check (Fin (85 # 100000)) iters (Fin (1 # 1000)) (Fin (9 # 10)) (Fin (999 # 1000)) (Fin (1 # 100000000)).

(* graph.get_parameter_bounds(), lib/graph.py:509-518 *)
Definition bounds : act (arr * arr) :=
  get x <~ read ;; get lo <~ give (numbers (x_lo x)) ;; get hi <~ give (numbers (x_hi x)) ;; ret (lo, hi).
(* fitness_grad of lines 319-321 and 371-373 *)
Definition fitness_grad : act (arr -> act arr) := fun w => (w, get_hessian (t_store w)).

(* lines 302-329 *)
Definition adam_gradient_projection (params : arr) (check : option nat) (iters : nat) : act (arr * nat * arr * arr) :=
  get grad <~ fitness_grad ;;
  get lh <~ bounds ;;
  adam_bounded grad (adam_settings check iters) (fst lh) (snd lh) params None None.

(* an individual of lines 385-414: score or None, parameters, has_converged, saved_m_v *)
Record tuned := mkTu { tu_score : option fl; tu_x : vec; tu_done : bool; tu_m : option arr; tu_v : option arr }.

Record descent := mkD {
  d_batches : Z;               (* n_batches *)
  d_size : nat;                (* batch_size *)
  d_check : option nat;        (* convergence_check_period *)
  d_noise : bool;              (* noise *)
  d_per : bool;                (* resample_per_individual *)
  d_period : Z }.              (* resample_period *)

(* lines 398-414 *)
Definition tune_one (c : descent) (grad : arr -> act arr) (lower upper : arr) (t : tuned) : act tuned :=
  get _ <~ resample_if (d_per c) ;;
  if tu_done t then ret t
  else
    get x <~ give (numbers (tu_x t)) ;;
    get r <~ adam_bounded grad (adam_settings (d_check c) (d_size c)) lower upper x (tu_m t) (tu_v t) ;;
    match r with (y, n, m, v) => ret (mkTu None (map value_of y) (negb (n =? d_size c)) (Some m) (Some v)) end.
(* lines 422-425 *)
Definition score_one (c : descent) (x : extracted) (t : tuned) : act (fl * tuned) :=
  get _ <~ resample_if (d_per c) ;;
  get sc <~ individual_score (tu_x t) x ;;
  ret (sc, mkTu (Some sc) (tu_x t) (tu_done t) (tu_m t) (tu_v t)).

(* Python's i % p == 0 for a period p > 0, and False otherwise *)
Definition falls_on (i : nat) (p : Z) : bool := ((0 <? p) && (Z.modulo (Z.of_nat i) p =? 0))%Z.

(* lines 389-428: one batch *)
Definition one_batch (c : descent) (grad : arr -> act arr) (lower upper : arr) (x : extracted) (b : nat)
  (q : list tuned * logbook) : act (list tuned * logbook) :=
  get _ <~ resample_if (negb (d_per c) && falls_on b (d_period c)) ;;
  get ts <~ each (tune_one c grad lower upper) (fst q) ;;
  get ss <~ each (score_one c x) ts ;;
  get l <~ give (logbook_update ["runtime"; "verbose"] (S b) (map fst ss) (snd q)) ;;
  ret (map snd ss, l).
Fixpoint batches (c : descent) (grad : arr -> act arr) (lower upper : arr) (x : extracted) (todo b : nat)
  (q : list tuned * logbook) : act (list tuned * logbook) :=
  match todo with
  | O => ret q
  | S t => get q' <~ one_batch c grad lower upper x b q ;; batches c grad lower upper x t (S b) q'
  end.

(* pop.sort(key=lambda x: x[0]), stable; the order for NaN is not Python's *)
Fixpoint insert_scored (a : fl * vec) (l : list (fl * vec)) : list (fl * vec) :=
  match l with [] => [a] | b :: r => if fltb (fst a) (fst b) then a :: l else b :: insert_scored a r end.
Definition by_score (l : list (fl * vec)) : list (fl * vec) := fold_left (fun acc a => insert_scored a acc) l [].

Fixpoint scored (l : list tuned) : res (list (fl * vec)) :=
  match l with
  | [] => Ok []
  | t :: r => do s <- of_option TypeError (tu_score t); do q <- scored r; Ok ((s, tu_x t) :: q)
  end.

(* lines 332-433 *)
Definition tuning_adam_gradient_descent (c : descent) (n_pop : nat) (pop : option (list (fl * vec))) : act (list (fl * vec) * logbook) :=
  get _ <~ set_noise (d_noise c) ;;
  get px <~ match pop with
            | None => initial_population n_pop Uniform false
            | Some p => if List.length p =? n_pop then get x <~ read ;; ret (p, x) else give (Err ValueError)
            end ;;
  get grad <~ fitness_grad ;;
  get lh <~ bounds ;;
  get l <~ give (logbook_update ["verbose"] 0 (map fst (fst px)) []) ;;
  get q <~ batches c grad (fst lh) (snd lh) (snd px) (Z.to_nat (d_batches c)) 0
             (map (fun p => mkTu (Some (fst p)) (snd p) false None None) (fst px), l) ;;
  get out <~ give (scored (fst q)) ;;
  ret (by_score out, snd q).

(** ** The genetic algorithm *)

Record genetic := mkG {
  g_generations : Z;           (* n_generations *)
  g_population : nat;          (* n_population *)
  g_crx : nat;                 (* np.floor(rate_crx * n_population) *)
  g_mut : nat;                 (* np.floor(rate_mut * n_population) *)
  g_noise : bool;
  g_crossover : crossing;
  g_dist : dist;               (* mutation_operator_dist *)
  g_per : bool;                (* resample_per_individual *)
  g_period : Z;                (* resample_period_gen *)
  g_period_batch : Z;          (* resample_period_batch *)
  g_top : Z;                   (* optimize_top_X *)
  g_batch_size : nat;          (* optimization_batch_size *)
  g_batch_num : Z }.           (* optimization_batch_num *)

(* random.sample and np.random of one generation *)
Record luck := mkLk {
  k_pair : nat -> nat * nat;
  k_one : nat -> nat;
  k_num : nat -> nat;
  k_pick : nat -> nat -> nat }.
Variable lucks : nat -> luck.

Definition some_scores (p : list (fl * vec)) : list (option fl * vec) := map (fun q => (Some (fst q), snd q)) p.

(* lines 195-199, 206-210 *)
Definition add_child (c : genetic) (x : extracted) (child : vec) : act (fl * vec) :=
  get _ <~ resample_if (g_per c) ;;
  get sc <~ individual_score child x ;;
  ret (sc, child).
(* lines 189-199 *)
Fixpoint cross_rounds (c : genetic) (x : extracted) (gen todo i : nat) (p : list (fl * vec)) : act (list (fl * vec)) :=
  match todo with
  | O => ret p
  | S t =>
      get ab <~ give (two_of pval (some_scores p) (k_pair (lucks gen) i)) ;;
      get cs <~ give (g_crossover c gen i (fst ab) (snd ab)) ;;
      get new <~ each (add_child c x) cs ;;
      cross_rounds c x gen t (S i) (p ++ new)
  end.
(* lines 200-210 *)
Fixpoint mutate_rounds (c : genetic) (x : extracted) (gen todo i : nat) (p : list (fl * vec)) : act (list (fl * vec)) :=
  match todo with
  | O => ret p
  | S t =>
      get parent <~ give (one_of pval (some_scores p) (k_one (lucks gen) i)) ;;
      get mut <~ sample_list Uniform gen i ;;
      get child <~ give (mutation parent mut (k_num (lucks gen) i) (k_pick (lucks gen) i)) ;;
      get new <~ add_child c x child ;;
      mutate_rounds c x gen t (S i) (p ++ [new])
  end.

Definition descent_of (c : genetic) : descent :=
  mkD (g_batch_num c) (g_batch_size c) (Some 1) (g_noise c) (g_per c) (g_period_batch c).

(* lines 214-224: the descent on the best individuals; the sum of both populations is sorted again *)
Definition tune_best (c : genetic) (p : list (fl * vec)) (logs : list logbook) : act (list (fl * vec) * list logbook) :=
  if (0 <? g_top c)%Z then
    let n := Z.to_nat (g_top c) in
    get q <~ tuning_adam_gradient_descent (descent_of c) n (Some (firstn n p)) ;;
    get p' <~ give (sort (p ++ fst q)) ;;
    ret (p', logs ++ [snd q])
  else ret (p, logs).

(* lines 181-229 *)
Definition one_generation (c : genetic) (x : extracted) (gen : nat) (q : list (fl * vec) * logbook * list logbook)
  : act (list (fl * vec) * logbook * list logbook) :=
  match q with (p, log, logs) =>
    get _ <~ resample_if (negb (g_per c) && falls_on gen (g_period c)) ;;
    get p1 <~ cross_rounds c x gen (g_crx c) 0 p ;;
    get p2 <~ mutate_rounds c x gen (g_mut c) 0 p1 ;;
    get p3 <~ give (sort p2) ;;
    get pl <~ tune_best c p3 logs ;;
    let p5 := truncate pval (g_population c) (fst pl) in
    get log' <~ give (logbook_update ["runtime"; "verbose"] gen (map fst p5) log) ;;
    ret (p5, log', snd pl)
  end.
Fixpoint generations (c : genetic) (x : extracted) (todo gen : nat) (q : list (fl * vec) * logbook * list logbook)
  : act (list (fl * vec) * logbook * list logbook) :=
  match todo with
  | O => ret q
  | S t => get q' <~ one_generation c x gen q ;; generations c x t (S gen) q'
  end.

(* lines 134-234: population, log, and the logs of the descents if there were to be any *)
Definition tuning_genetic_algorithm (c : genetic) : act (list (fl * vec) * logbook * option (list logbook)) :=
  get _ <~ set_noise (g_noise c) ;;
  get px <~ initial_population (g_population c) (g_dist c) (g_per c) ;;
  get l <~ give (logbook_update ["verbose"] 0 (map fst (fst px)) []) ;;
  get q <~ generations c (snd px) (Z.to_nat (g_generations c)) 1 (fst px, l, []) ;;
  ret (fst (fst q), snd (fst q), if (0 <? g_top c)%Z then Some (snd q) else None).
End Tuning.
